(** Proofs for the lattice and surface-hopping properties. *)
From Coq Require Import Bool Lqa.
From Verif Require Import Base HopModel HopSpec.
Open Scope Z_scope.

Lemma axis_nat L i : (i < L)%nat -> axis L (Z.of_nat i) = Ok i.
Proof.
  intros H. unfold axis. replace ((0 <=? Z.of_nat i) && (Z.of_nat i <? Z.of_nat L))%bool with true.
  - now rewrite Nat2Z.id.
  - symmetry. apply andb_true_iff. split; [apply Z.leb_le | apply Z.ltb_lt]; lia.
Qed.
Lemma axis_last L : (0 < L)%nat -> axis L (-1) = Ok (L - 1)%nat.
Proof.
  intros H. unfold axis. cbn [Z.leb Z.compare andb Z.ltb]. destruct (Z.leb_spec 0 (Z.of_nat L + -1)); [|lia].
  f_equal. lia.
Qed.
Lemma axis_zero L : (0 < L)%nat -> axis L 0 = Ok 0%nat.
Proof. intros H. apply (axis_nat L 0 H). Qed.
Lemma set2_nat L t i j v : (i < L)%nat -> (j < L)%nat ->
  set2 L t (Z.of_nat i) (Z.of_nat j) v = Ok (put t i j v).
Proof. intros Hi Hj. unfold set2. now rewrite !axis_nat by lia. Qed.

(** neighbours as naturals *)
Definition nl (bc : bcond) (L i : nat) : nat :=
  match bc with Periodic => if Nat.eqb i 0 then (L - 1)%nat else (i - 1)%nat
              | _ => if Nat.eqb i 0 then 1%nat else (i - 1)%nat end.
Definition nr (bc : bcond) (L i : nat) : nat :=
  match bc with Periodic => if Nat.eqb i (L - 1) then 0%nat else (i + 1)%nat
              | _ => if Nat.eqb i (L - 1) then (i - 1)%nat else (i + 1)%nat end.
Lemma nn_nat bc L i : bc <> Other -> (2 <= L)%nat -> (i < L)%nat ->
  nn bc L i = Ok (Z.of_nat (nl bc L i), Z.of_nat (nr bc L i)) /\ (nl bc L i < L)%nat /\ (nr bc L i < L)%nat.
Proof.
  intros Hb HL Hi. unfold nn, nl, nr.
  destruct (Z.ltb_spec (Z.of_nat L) (Z.of_nat i)); [lia|].
  destruct bc; try (contradict Hb; reflexivity);
  destruct (Z.eqb_spec (Z.of_nat i) 0); destruct (Z.eqb_spec (Z.of_nat i) (Z.of_nat L - 1));
  destruct (Nat.eqb_spec i 0); destruct (Nat.eqb_spec i (L - 1)); try lia;
  (split; [f_equal; f_equal; lia | lia]).
Qed.

Lemma hop_loop_spec bc L (Hb : bc <> Other) (HL : (2 <= L)%nat) :
  forall m k t, (k + m <= L)%nat ->
  exists t', hop_loop bc L (seq k m) t = Ok t' /\
    forall a b, t' a b = if (Nat.leb k a && Nat.ltb a (k + m) && (Nat.eqb b (nl bc L a) || Nat.eqb b (nr bc L a)))%bool
                         then -1 else t a b.
Proof.
  induction m as [|m IH]; intros k t Hk.
  - exists t. split; [reflexivity|]. intros a b.
    destruct (Nat.leb_spec k a); destruct (Nat.ltb_spec a (k + 0)); try lia; reflexivity.
  - cbn [seq hop_loop]. destruct (nn_nat bc L k Hb HL ltac:(lia)) as (E & H1 & H2).
    rewrite E. cbn [rbind fst snd]. rewrite set2_nat by lia. cbn [rbind]. rewrite set2_nat by lia. cbn [rbind].
    destruct (IH (S k) (put (put t k (nl bc L k) (-1)) k (nr bc L k) (-1)) ltac:(lia)) as (t' & E' & Ht).
    exists t'. split; [exact E'|]. intros a b. rewrite Ht. unfold put.
    destruct (Nat.leb_spec (S k) a); destruct (Nat.leb_spec k a); destruct (Nat.ltb_spec a (S k + m));
    destruct (Nat.ltb_spec a (k + S m)); destruct (Nat.eqb_spec a k); try lia; subst; cbn [andb]; try reflexivity.
    destruct (Nat.eqb b (nl bc L k)); destruct (Nat.eqb b (nr bc L k)); reflexivity.
Qed.

Lemma nbr_bonded bc L i j : bc <> Other -> (2 <= L)%nat -> (i < L)%nat -> (j < L)%nat ->
  (Nat.eqb j (nl bc L i) || Nat.eqb j (nr bc L i))%bool = true <-> bonded bc L i j.
Proof.
  intros Hb HL Hi Hj. rewrite orb_true_iff, !Nat.eqb_eq. unfold bonded, nl, nr.
  destruct bc; try (contradict Hb; reflexivity);
  destruct (Nat.eqb_spec i 0); destruct (Nat.eqb_spec i (L - 1)); split; intros H;
  repeat match goal with H : _ \/ _ |- _ => destruct H | H : _ /\ _ |- _ => destruct H end; subst;
  try discriminate; try lia;
  try (left; lia); try (right; left; lia); try (right; right; split; [reflexivity | lia]).
Qed.
Lemma bonded_sym bc L i j : bonded bc L i j -> bonded bc L j i.
Proof. unfold bonded. tauto. Qed.

Lemma loop_hopping bc L : bc <> Other -> (2 <= L)%nat ->
  exists t, hop_loop bc L (seq 0 L) zeros = Ok t /\ hopping bc L (-1) t.
Proof.
  intros Hb HL. destruct (hop_loop_spec bc L Hb HL L 0 zeros ltac:(lia)) as (t & E & Ht).
  exists t. split; [exact E|]. intros i j Hi Hj. rewrite Ht. cbn [Nat.leb andb Nat.add].
  destruct (Nat.ltb_spec i L); [|lia]. cbn [andb].
  pose proof (nbr_bonded bc L i j Hb HL Hi Hj) as HB.
  destruct (Nat.eqb j (nl bc L i) || Nat.eqb j (nr bc L i))%bool.
  - split; [reflexivity|]. intros K. exfalso. apply K, HB. reflexivity.
  - split; [intros K; apply HB in K; discriminate | reflexivity].
Qed.
Lemma bonded_dec bc L i j : bonded bc L i j \/ ~ bonded bc L i j.
Proof.
  unfold bonded. destruct (Nat.eq_dec j (i + 1)); [tauto|]. destruct (Nat.eq_dec i (j + 1)); [tauto|].
  destruct (Nat.eq_dec L 1) as [HL|HL]; [right; intros [K|[K|(_ & K & _)]]; lia|].
  destruct bc; [|right; intros [K|[K|(K & _)]]; [lia | lia | discriminate] ..].
  destruct (Nat.eq_dec i 0); destruct (Nat.eq_dec j 0); destruct (Nat.eq_dec i (L - 1)); destruct (Nat.eq_dec j (L - 1));
  first [left; right; right; split; [reflexivity|lia] | right; intros [K|[K|(_ & _ & K)]]; lia].
Qed.
Lemma hopping_sym bc L v t : hopping bc L v t -> symmetric L t.
Proof.
  intros H i j Hi Hj. destruct (H i j Hi Hj) as [A B]. destruct (H j i Hj Hi) as [A' B'].
  destruct (bonded_dec bc L i j) as [K|K].
  - rewrite (A K), (A' (bonded_sym _ _ _ _ K)). reflexivity.
  - rewrite (B K). symmetry. apply B'. intros K'. apply K, bonded_sym, K'.
Qed.

Lemma hubbard_chain bc L : bc <> Other -> (2 <= L)%nat ->
  exists t, tmatS bc L = Ok t /\ hopping bc L (-1) t /\ symmetric L t.
Proof.
  intros Hb HL. destruct (loop_hopping bc L Hb HL) as (t & E & H).
  exists t. split; [exact E|]. split; [exact H | exact (hopping_sym _ _ _ _ H)].
Qed.
Lemma hubbard_one_open : tmatS Open_ 1 = Err IndexError.
Proof. reflexivity. Qed.
Lemma hubbard_one_periodic : exists t, tmatS Periodic 1 = Ok t /\ t 0%nat 0%nat = -1 /\ ~ bonded Periodic 1 0 0.
Proof.
  eexists. split; [reflexivity|]. split; [reflexivity|]. unfold bonded. lia.
Qed.
Lemma hubbard_other L : (0 < L)%nat -> tmatS Other L = Err RuntimeError.
Proof. destruct L; [lia|]. reflexivity. Qed.

Lemma hh_chain bc L : bc <> Other -> (3 <= L)%nat ->
  exists t, hh_tmatS bc L = Ok t /\ hopping bc L (-1) t /\ symmetric L t.
Proof.
  intros Hb HL. destruct (loop_hopping bc L Hb ltac:(lia)) as (t & E & H).
  exists t. split; [|split; [exact H | exact (hopping_sym _ _ _ _ H)]].
  unfold hh_tmatS. rewrite E. cbn [rbind]. destruct (Nat.eqb_spec L 2); [lia|reflexivity].
Qed.
Lemma hh_two bc : bc <> Other -> exists t, hh_tmatS bc 2 = Ok t /\ hopping bc 2 (-2) t /\ symmetric 2 t.
Proof.
  intros Hb. assert (G : exists t, hh_tmatS bc 2 = Ok t /\ hopping bc 2 (-2) t).
  { destruct bc; try (contradict Hb; reflexivity);
    (eexists; split; [reflexivity|]; intros [|[|]] [|[|]] Hi Hj; try lia; unfold bonded; cbn; split; intros; try reflexivity; lia). }
  destruct G as (t & E & H). exists t. split; [exact E|]. split; [exact H | exact (hopping_sym _ _ _ _ H)].
Qed.

Lemma chain_loop_spec L : forall m k t, (k + m < L)%nat ->
  exists t', chain_loop L (seq k m) t = Ok t' /\
    forall a b, t' a b = if (Nat.leb k (Nat.min a b) && Nat.ltb (Nat.min a b) (k + m) && (Nat.eqb b (a + 1) || Nat.eqb a (b + 1)))%bool
                         then -1 else t a b.
Proof.
  induction m as [|m IH]; intros k t Hk.
  - exists t. split; [reflexivity|]. intros a b.
    destruct (Nat.leb_spec k (Nat.min a b)); destruct (Nat.ltb_spec (Nat.min a b) (k + 0)); try lia; reflexivity.
  - cbn [seq chain_loop]. replace (Z.of_nat k + 1) with (Z.of_nat (k + 1)) by lia.
    rewrite !set2_nat by lia. cbn [rbind]. rewrite !set2_nat by lia. cbn [rbind].
    destruct (IH (S k) (put (put t k (k + 1) (-1)) (k + 1) k (-1)) ltac:(lia)) as (t' & E' & Ht).
    exists t'. split; [exact E'|]. intros a b. rewrite Ht. unfold put.
    destruct (Nat.eqb_spec b (a + 1)); destruct (Nat.eqb_spec a (b + 1)); try lia;
    destruct (Nat.leb_spec (S k) (Nat.min a b)); destruct (Nat.leb_spec k (Nat.min a b)); try lia;
    destruct (Nat.ltb_spec (Nat.min a b) (S k + m)); destruct (Nat.ltb_spec (Nat.min a b) (k + S m)); try lia;
    destruct (Nat.eqb_spec a k); destruct (Nat.eqb_spec b k); destruct (Nat.eqb_spec a (k + 1)); destruct (Nat.eqb_spec b (k + 1));
    try lia; reflexivity.
Qed.

Lemma mo_chain bc L : (3 <= L)%nat ->
  exists t, mo_h1 bc L = Ok t /\ hopping bc L (-1) t.
Proof.
  intros HL. destruct (chain_loop_spec L (L - 1) 0 zeros ltac:(lia)) as (t & E & Ht).
  assert (Hop : forall i j, (i < L)%nat -> (j < L)%nat -> t i j = if (Nat.eqb j (i + 1) || Nat.eqb i (j + 1))%bool then -1 else 0).
  { intros i j Hi Hj. rewrite Ht. cbn [Nat.leb andb]. unfold zeros.
    destruct (Nat.eqb_spec j (i + 1)); destruct (Nat.eqb_spec i (j + 1)); cbn [orb];
    rewrite ?andb_false_r; try reflexivity;
    (destruct (Nat.ltb_spec (Nat.min i j) (0 + (L - 1))); [reflexivity|lia]). }
  unfold mo_h1. rewrite E. cbn [rbind].
  assert (HO : bc <> Periodic -> hopping bc L (-1) t).
  { intros Hb i j Hi Hj. rewrite Hop by assumption. unfold bonded.
    destruct (Nat.eqb_spec j (i + 1)); destruct (Nat.eqb_spec i (j + 1)); cbn [orb]; split; intros K; try reflexivity; exfalso; try (apply K; tauto).
    destruct K as [K|[K|[K _]]]; [lia | lia | contradiction]. }
  destruct bc.
  2,3: (exists t; split; [reflexivity | apply HO; discriminate]).
  unfold add2. rewrite axis_last, axis_zero by lia. cbn [rbind].
  eexists. split; [reflexivity|]. intros i j Hi Hj. unfold put, bonded.
  rewrite !Hop by lia.
  destruct (Nat.eqb_spec i 0); destruct (Nat.eqb_spec j (L - 1)); destruct (Nat.eqb_spec i (L - 1)); destruct (Nat.eqb_spec j 0); try lia; subst; cbn [andb];
  repeat match goal with |- context[Nat.eqb ?a ?b] => destruct (Nat.eqb_spec a b); try lia end; cbn [orb andb Z.add];
  split; intros K; try reflexivity; exfalso; try (apply K; first [left; lia | right; left; lia | right; right; split; [reflexivity|lia]]);
  destruct K as [K|[K|(_ & _ & K)]]; lia.
Qed.
Lemma hopping_same bc L v s t : hopping bc L v s -> hopping bc L v t -> same L s t.
Proof.
  intros Hs Ht i j Hi Hj. destruct (Hs i j Hi Hj) as [A B], (Ht i j Hi Hj) as [A' B'].
  destruct (bonded_dec bc L i j) as [K|K]; [rewrite A, A' | rewrite B, B']; auto.
Qed.
Lemma hh_mo_same bc L : bc <> Other -> (2 <= L)%nat -> (L <> 2%nat \/ bc = Periodic) ->
  exists s t, hh_tmatS bc L = Ok s /\ mo_h1 bc L = Ok t /\ same L s t.
Proof.
  intros Hb HL HC. destruct (Nat.eq_dec L 2) as [->|NE].
  - destruct HC as [C| ->]; [lia|]. do 2 eexists. split; [reflexivity|]. split; [reflexivity|].
    intros [|[|]] [|[|]] Hi Hj; try lia; reflexivity.
  - destruct (hh_chain bc L Hb ltac:(lia)) as (s & Es & Hs & _). destruct (mo_chain bc L ltac:(lia)) as (t & Et & Ht).
    exists s, t. split; [exact Es|]. split; [exact Et|]. exact (hopping_same _ _ _ _ _ Hs Ht).
Qed.
Lemma hh_mo_differ : exists s t, hh_tmatS Open_ 2 = Ok s /\ mo_h1 Open_ 2 = Ok t /\
  s 0%nat 1%nat = -2 /\ t 0%nat 1%nat = -1.
Proof. do 2 eexists. split; [reflexivity|]. split; [reflexivity|]. split; reflexivity. Qed.

(** get_mo *)
Lemma mo_onsite L U : onsite L U (mo_eri L U true).
Proof.
  intros i j k l Hi Hj Hk Hl. unfold mo_eri. destruct (Nat.ltb_spec i L); [reflexivity|lia].
Qed.
Lemma mo_no_U : exists L U, (0 < L)%nat /\ ~ onsite L U (mo_eri L U false).
Proof.
  exists 1%nat, 4%Q. split; [lia|]. intros H. specialize (H 0 0 0 0)%nat.
  cbn in H. assert (0 = 4)%Q by (apply H; lia). discriminate.
Qed.
Lemma mo_ignores_U O (solver : Z -> mat -> (nat -> nat -> nat -> nat -> Q) -> (nat -> Q * Q) -> O) L N U U' bc :
  get_mo solver L N U false bc = get_mo solver L N U' false bc.
Proof. reflexivity. Qed.
Lemma mo_odd O (solver : Z -> mat -> (nat -> nat -> nat -> nat -> Q) -> (nat -> Q * Q) -> O) L N U b bc :
  (2 <= L)%nat -> N mod 2 <> 0 -> get_mo solver L N U b bc = Err AssertionError.
Proof.
  intros HL HN. unfold get_mo. assert (E : exists t, mo_h1 bc L = Ok t).
  { destruct (Nat.eq_dec L 2) as [->|]; [destruct bc; eexists; reflexivity|].
    destruct (mo_chain bc L ltac:(lia)) as (t & E & _). exists t. exact E. }
  destruct E as [t ->]. cbn [rbind]. destruct (Z.eqb_spec (N mod 2) 0); [contradiction|reflexivity].
Qed.

(** SH.get_H.  Position in nact of the pair (j, k), j <= k. *)
Fixpoint row_start (n j : nat) : nat := match j with O => O | S j' => (row_start n j' + (n - j'))%nat end.

Lemma sh_inner_spec d j : forall m k0 h c, (j <= k0)%nat -> (c + m <= length d)%nat ->
  exists h', sh_inner d j (seq k0 m) (h, c) = Ok (h', (c + m)%nat) /\
   (forall a b, a <> j -> b <> j -> h' a b = h a b) /\
   (forall k, (k < k0 \/ k0 + m <= k)%nat -> h' j k = h j k /\ h' k j = h k j) /\
   (forall k, (k0 <= k < k0 + m)%nat -> exists x, nth_error d (c + (k - k0)) = Some x /\
       h' k j = (- x)%Q /\ (k <> j -> h' j k = x)).
Proof.
  induction m as [|m IH]; intros k0 h c Hj Hc.
  - exists h. split; [cbn; now rewrite Nat.add_0_r|]. split; [auto|]. split; [auto|]. intros; lia.
  - cbn [seq sh_inner fst snd]. unfold index.
    destruct (nth_error d c) as [x|] eqn:E; [|apply nth_error_None in E; lia]. cbn [rbind].
    destruct (IH (S k0) (hput (hput h j k0 x) k0 j (- x)%Q) (S c) ltac:(lia) ltac:(lia)) as (h' & E' & H1 & H2 & H3).
    exists h'. split; [rewrite E'; f_equal; f_equal; lia|]. split; [|split].
    + intros a b Ha Hb. rewrite H1 by assumption. unfold hput.
      destruct (Nat.eqb_spec b j); [lia|]. rewrite andb_false_r.
      destruct (Nat.eqb_spec a j); [lia|]. reflexivity.
    + intros k Hk. destruct (H2 k ltac:(lia)) as [-> ->]. unfold hput. split;
      repeat match goal with |- context[Nat.eqb ?a ?b] => destruct (Nat.eqb_spec a b); try lia end; cbn [andb]; subst; try lia; reflexivity.
    + intros k Hk. destruct (Nat.eq_dec k k0) as [->|NE].
      * exists x. rewrite Nat.sub_diag, Nat.add_0_r. split; [exact E|].
        destruct (H2 k0 ltac:(lia)) as [-> ->]. unfold hput. rewrite !Nat.eqb_refl. cbn [andb]. split; [reflexivity|].
        intros NE. destruct (Nat.eqb_spec j k0); [lia|]. reflexivity.
      * destruct (H3 k ltac:(lia)) as (y & Ey & R). exists y. split; [|exact R].
        rewrite <- Ey. f_equal. lia.
Qed.

Definition sh_done (n : nat) (d : list Q) (h : hmat) (j : nat) : Prop :=
  forall k, (j <= k < n)%nat -> exists x, nth_error d (row_start n j + (k - j)) = Some x /\
    h k j = (- x)%Q /\ (k <> j -> h j k = x).

Lemma sh_outer_spec n e d : (n <= length e)%nat -> (row_start n n <= length d)%nat ->
  forall m j0 h, (j0 + m = n)%nat -> (forall j, (j < j0)%nat -> sh_done n d h j) ->
  exists h' c, sh_outer n e d (seq j0 m) (h, row_start n j0) = Ok (h', c) /\ forall j, (j < n)%nat -> sh_done n d h' j.
Proof.
  intros He Hd. induction m as [|m IH]; intros j0 h Hm Hh.
  - exists h, (row_start n j0). split; [reflexivity|]. intros j Hj. apply Hh. lia.
  - cbn [seq sh_outer]. unfold index.
    destruct (nth_error e j0) as [x|] eqn:E; [|apply nth_error_None in E; lia]. cbn [rbind fst snd].
    assert (RS : forall j, (j <= n)%nat -> (row_start n j <= row_start n n)%nat).
    { intros j Hj. assert (G : forall p, (row_start n j <= row_start n (j + p))%nat).
      { induction p; [rewrite Nat.add_0_r; lia|]. rewrite Nat.add_succ_r. cbn. lia. }
      specialize (G (n - j)%nat). replace (j + (n - j))%nat with n in G by lia. exact G. }
    pose proof (RS (S j0) ltac:(lia)) as R1. cbn [row_start] in R1.
    destruct (sh_inner_spec d j0 (n - j0) j0 (hput h j0 j0 x) (row_start n j0) ltac:(lia) ltac:(lia)) as (h1 & E1 & H1 & H2 & H3).
    rewrite E1. cbn [rbind].
    apply (IH (S j0) h1 ltac:(lia)). intros j Hj. destruct (Nat.eq_dec j j0) as [->|NE].
    + intros k Hk. apply H3. lia.
    + intros k Hk. destruct (Hh j ltac:(lia) k Hk) as (y & Ey & A & B). exists y. split; [exact Ey|].
      destruct (Nat.eq_dec k j0) as [->|NK].
      * destruct (H2 j ltac:(lia)) as [-> ->]. unfold hput.
        destruct (Nat.eqb_spec j j0); [lia|]. rewrite andb_false_r. cbn [andb]. auto.
      * rewrite !H1 by lia. unfold hput. destruct (Nat.eqb_spec j j0); [lia|].
        destruct (Nat.eqb_spec k j0); [lia|]. cbn [andb]. auto.
Qed.

Lemma row_start_eq n : forall j, (j <= n)%nat -> (2 * row_start n j = j * (2 * n + 1 - j))%nat.
Proof. induction j; intros H; [reflexivity|]. cbn [row_start]. specialize (IHj ltac:(lia)). nia. Qed.
Lemma row_start_full n : (2 * row_start n n = n * (n + 1))%nat.
Proof. rewrite row_start_eq by lia. f_equal. lia. Qed.

Lemma get_H1_ok n e d h : (n <= length e)%nat -> (n * (n + 1) <= 2 * length d)%nat ->
  exists H, get_H1 n e d h = Ok H /\ forall j, (j < n)%nat -> sh_done n d H j.
Proof.
  intros He Hd. pose proof (row_start_full n) as R.
  destruct (sh_outer_spec n e d He ltac:(lia) n 0 h ltac:(lia) ltac:(lia)) as (H & c & E & Hs).
  exists H. split; [|exact Hs]. unfold get_H1. cbn [row_start] in E. now rewrite E.
Qed.
Lemma get_H1_antisym n e d h H : (n <= length e)%nat -> (n * (n + 1) <= 2 * length d)%nat ->
  get_H1 n e d h = Ok H -> antisym n H.
Proof.
  intros He Hd HE. destruct (get_H1_ok n e d h He Hd) as (H' & E & Hs). rewrite HE in E. injection E as <-.
  intros j k Hj Hk NE. destruct (Nat.lt_trichotomy j k) as [C|[C|C]]; [|lia|].
  - destruct (Hs j Hj k ltac:(lia)) as (x & _ & -> & B). rewrite B by lia. reflexivity.
  - destruct (Hs k Hk j ltac:(lia)) as (x & _ & -> & B). rewrite B by lia. lra.
Qed.
Lemma get_H1_couplings n e d h H : (n <= length e)%nat -> (n * (n + 1) <= 2 * length d)%nat ->
  get_H1 n e d h = Ok H -> forall j k, (j < k < n)%nat ->
  nth_error d (j * (2 * n + 1 - j) / 2 + (k - j)) = Some (H j k).
Proof.
  intros He Hd HE j k Hk. destruct (get_H1_ok n e d h He Hd) as (H' & E & Hs). rewrite HE in E. injection E as <-.
  destruct (Hs j ltac:(lia) k ltac:(lia)) as (x & Ex & _ & B). rewrite B by lia. rewrite <- Ex. f_equal. f_equal.
  rewrite <- (row_start_eq n j) by lia. rewrite Nat.mul_comm. apply Nat.div_mul. lia.
Qed.
Lemma get_H1_diag n e d h H : (n <= length e)%nat -> (n * (n + 1) <= 2 * length d)%nat ->
  get_H1 n e d h = Ok H -> forall j, (j < n)%nat ->
  exists x, nth_error d (j * (2 * n + 1 - j) / 2) = Some x /\ H j j = (- x)%Q.
Proof.
  intros He Hd HE j Hj. destruct (get_H1_ok n e d h He Hd) as (H' & E & Hs). rewrite HE in E. injection E as <-.
  destruct (Hs j ltac:(lia) j ltac:(lia)) as (x & Ex & A & _). exists x. split; [|exact A].
  rewrite <- Ex, Nat.sub_diag, Nat.add_0_r. f_equal.
  rewrite <- (row_start_eq n j) by lia. rewrite Nat.mul_comm. apply Nat.div_mul. lia.
Qed.

(** one coupling per pair of states: the array is too short *)
Lemma sh_inner_err d j : forall m k0 h c, (length d < c + m)%nat -> (c <= length d)%nat ->
  sh_inner d j (seq k0 m) (h, c) = Err IndexError.
Proof.
  induction m as [|m IH]; intros k0 h c H1 H2; [lia|]. cbn [seq sh_inner fst snd]. unfold index.
  destruct (nth_error d c) as [x|] eqn:E; [|reflexivity].
  assert (c < length d)%nat by (apply nth_error_Some; congruence). cbn [rbind]. apply IH; lia.
Qed.
Lemma sh_outer_err n e d : (n <= length e)%nat -> (length d < row_start n n)%nat ->
  forall m j0 h, (j0 + m = n)%nat -> (row_start n j0 <= length d)%nat ->
  sh_outer n e d (seq j0 m) (h, row_start n j0) = Err IndexError.
Proof.
  intros He Hd. induction m as [|m IH]; intros j0 h Hm Hr.
  - rewrite Nat.add_0_r in Hm. subst. lia.
  - cbn [seq sh_outer]. unfold index.
    destruct (nth_error e j0) as [x|] eqn:E; [|apply nth_error_None in E; lia]. cbn [rbind fst snd].
    destruct (le_lt_dec (row_start n (S j0)) (length d)) as [C|C]; cbn [row_start] in C.
    + destruct (sh_inner_spec d j0 (n - j0) j0 (hput h j0 j0 x) (row_start n j0) ltac:(lia) ltac:(lia)) as (h1 & E1 & _).
      rewrite E1. cbn [rbind]. apply (IH (S j0) h1); [lia|exact C].
    + rewrite sh_inner_err by lia. reflexivity.
Qed.
Lemma get_H1_short n e d h : (n <= length e)%nat -> (2 * length d < n * (n + 1))%nat ->
  get_H1 n e d h = Err IndexError.
Proof.
  intros He Hd. pose proof (row_start_full n). unfold get_H1.
  change (h, 0%nat) with (h, row_start n 0). rewrite sh_outer_err; [reflexivity | assumption | lia | lia | cbn; lia].
Qed.

Lemma get_H_all n mols hs : get_H n mols = Ok hs -> Forall2 (fun m h => get_H1 n (fst (fst m)) (snd (fst m)) (snd m) = Ok h) mols hs.
Proof.
  unfold get_H. revert hs. induction mols as [|m r IH]; intros hs H; cbn [rmapM] in H.
  - injection H as <-. constructor.
  - destruct (get_H1 n (fst (fst m)) (snd (fst m)) (snd m)) as [x|] eqn:E; [|discriminate]. cbn [rbind] in H.
    destruct (rmapM _ r) as [ys|] eqn:E2; [|discriminate]. cbn [rbind] in H. injection H as <-.
    constructor; [exact E | apply IH; reflexivity].
Qed.
Lemma get_H_antisym n mols hs : Forall (fun m => (n <= length (fst (fst m)))%nat /\ (n * (n + 1) <= 2 * length (snd (fst m)))%nat) mols ->
  get_H n mols = Ok hs -> Forall (antisym n) hs.
Proof.
  intros HF H. apply get_H_all in H. induction H as [|m h mols hs E _ IH]; [constructor|].
  inversion HF as [|? ? [A B] F']; subst. constructor; [|apply IH; exact F'].
  exact (get_H1_antisym _ _ _ _ _ A B E).
Qed.
Lemma get_H_diag_wrong n e d h H j : (n <= length e)%nat -> (n * (n + 1) <= 2 * length d)%nat -> (j < n)%nat ->
  get_H1 n e d h = Ok H -> diag_ok n e H ->
  exists x y, nth_error e j = Some x /\ nth_error d (j * (2 * n + 1 - j) / 2) = Some y /\ x = (- y)%Q.
Proof.
  intros He Hd Hj HE HD. destruct (get_H1_diag n e d h H He Hd HE j Hj) as (y & Ey & EH).
  exists (H j j), y. split; [apply HD; exact Hj|]. split; [exact Ey | exact EH].
Qed.
Lemma get_H_refuted : exists n e d h H, (n <= length e)%nat /\ get_H1 n e d h = Ok H /\ ~ diag_ok n e H.
Proof.
  exists 2%nat, [1; 2]%Q, [0; 3; 0]%Q, (fun _ _ => 7%Q). eexists. split; [cbn; lia|]. split; [reflexivity|].
  intros HD. specialize (HD 0%nat ltac:(lia)). cbn in HD. discriminate.
Qed.

(** population is not conserved by - i H c with an antisymmetric real H *)
Lemma norm_rate_refuted : exists n e d h H c, get_H1 n e d h = Ok H /\ antisym n H /\
  ~ (norm_rate n c (coef_dot n H c) == 0)%Q.
Proof.
  exists 2%nat, [1; 2]%Q, [0; 3; 0]%Q, (fun _ _ => 7%Q). eexists.
  exists (fun j => if Nat.eqb j 0 then (1, 0)%Q else (0, 1)%Q). split; [reflexivity|]. split.
  - apply (get_H1_antisym 2 [1; 2]%Q [0; 3; 0]%Q (fun _ _ => 7%Q)); [cbn; lia | cbn; lia | reflexivity].
  - vm_compute. discriminate.
Qed.

Lemma qsum_ext {A} (f g : A -> Q) l : (forall x, In x l -> (f x == g x)%Q) -> (qsum (map f l) == qsum (map g l))%Q.
Proof.
  induction l; intros H; cbn; [reflexivity|]. rewrite (H a (or_introl eq_refl)), IHl; [reflexivity|].
  intros x Hx. apply H. right. exact Hx.
Qed.
Lemma qsum_plus {A} (f g : A -> Q) l : (qsum (map (fun x => f x + g x) l) == qsum (map f l) + qsum (map g l))%Q.
Proof. induction l; cbn; [reflexivity|]. rewrite IHl. ring. Qed.
Lemma qsum_scale {A} (k : Q) (f : A -> Q) l : (k * qsum (map f l) == qsum (map (fun x => k * f x) l))%Q.
Proof. induction l; cbn; [ring|]. rewrite <- IHl. ring. Qed.
Lemma qsum_zero {A} (l : list A) : (qsum (map (fun _ => 0) l) == 0)%Q.
Proof. induction l; cbn; [reflexivity|]. rewrite IHl. ring. Qed.
Lemma qsum_swap {A B} (f : A -> B -> Q) l l' :
  (qsum (map (fun a => qsum (map (fun b => f a b) l')) l) == qsum (map (fun b => qsum (map (fun a => f a b) l)) l'))%Q.
Proof.
  induction l; cbn.
  - rewrite qsum_zero. reflexivity.
  - rewrite IHl, <- qsum_plus. apply qsum_ext. intros; reflexivity.
Qed.
Lemma norm_rate_expand n h c : (norm_rate n c (coef_dot n h c) ==
  2 * (qsum (map (fun j => qsum (map (fun k => fst (c j) * h j k * snd (c k)) (seq 0 n))) (seq 0 n))
     - qsum (map (fun j => qsum (map (fun k => fst (c j) * h k j * snd (c k)) (seq 0 n))) (seq 0 n))))%Q.
Proof.
  unfold norm_rate, coef_dot. cbn [fst snd]. apply Qmult_comp; [reflexivity|].
  rewrite qsum_plus.
  rewrite (qsum_ext _ (fun j => qsum (map (fun k => fst (c j) * h j k * snd (c k)) (seq 0 n))))%Q.
  2:{ intros j _. rewrite qsum_scale. apply qsum_ext. intros; ring. }
  rewrite (qsum_ext (fun x => snd (c x) * - qsum (map (fun k : nat => h x k * fst (c k)) (seq 0 n)))
     (fun x => -1 * qsum (map (fun k => fst (c k) * h x k * snd (c x)) (seq 0 n))))%Q.
  2:{ intros j _. rewrite (qsum_scale (-1)%Q). setoid_replace (snd (c j) * - qsum (map (fun k : nat => h j k * fst (c k)) (seq 0 n)))%Q
        with (- snd (c j) * qsum (map (fun k : nat => h j k * fst (c k)) (seq 0 n)))%Q by ring.
      rewrite qsum_scale. apply qsum_ext. intros; ring. }
  rewrite <- qsum_scale. rewrite (qsum_swap (fun x k => fst (c k) * h x k * snd (c x))%Q). ring.
Qed.
Lemma norm_rate_sym n h c : (forall j k, (j < n)%nat -> (k < n)%nat -> (h j k == h k j)%Q) ->
  (norm_rate n c (coef_dot n h c) == 0)%Q.
Proof.
  intros H. rewrite norm_rate_expand.
  rewrite (qsum_ext (fun j => qsum (map (fun k => fst (c j) * h j k * snd (c k)) (seq 0 n)))
     (fun j => qsum (map (fun k => fst (c j) * h k j * snd (c k)) (seq 0 n))))%Q; [ring|].
  intros j Hj. apply qsum_ext. intros k Hk. apply in_seq in Hj, Hk. rewrite (H j k) by lia. reflexivity.
Qed.
