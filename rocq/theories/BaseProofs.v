(** Lemmas about the vocabulary of Base.v. *)
From Verif Require Import Base.
From Coq Require Import Lqa Permutation.
Open Scope Q_scope.

Lemma upd_length {A} (l : list A) i x : length (upd l i x) = length l.
Proof. revert i; induction l; destruct i; simpl; auto. Qed.

Lemma nth_error_upd_eq {A} (l : list A) i x :
  (i < length l)%nat -> nth_error (upd l i x) i = Some x.
Proof.
  revert i; induction l; intros i H; simpl in H; [lia|].
  destruct i; simpl; auto. apply IHl; lia.
Qed.

Lemma nth_error_upd_neq {A} (l : list A) i j x :
  i <> j -> nth_error (upd l i x) j = nth_error l j.
Proof.
  revert i j; induction l; intros i j H; simpl.
  - destruct i; auto.
  - destruct i, j; simpl; auto; try congruence.
Qed.

Lemma qsum_app l1 l2 : qsum (l1 ++ l2) == qsum l1 + qsum l2.
Proof. induction l1; simpl; [lra|rewrite IHl1; lra]. Qed.

Lemma qsum_upd {B} (g : B -> Q) (l : list B) i x y :
  nth_error l i = Some y ->
  qsum (map g (upd l i x)) == qsum (map g l) - g y + g x.
Proof.
  revert i; induction l; intros i H; destruct i; simpl in *; try discriminate.
  - inversion H; subst; lra.
  - rewrite (IHl _ H); lra.
Qed.

Lemma qsum_perm l1 l2 : Permutation l1 l2 -> qsum l1 == qsum l2.
Proof. induction 1; simpl; lra. Qed.

Lemma qsum_map_ext {B} (f g : B -> Q) l :
  (forall x, In x l -> f x == g x) -> qsum (map f l) == qsum (map g l).
Proof.
  induction l; simpl; intros H; [reflexivity|].
  rewrite IHl by (intros; apply H; auto). rewrite (H a) by auto. reflexivity.
Qed.

Lemma qsum_repeat x n : qsum (repeat x n) == inject_Z (Z.of_nat n) * x.
Proof.
  induction n; simpl repeat; simpl qsum.
  - simpl Z.of_nat. unfold inject_Z. lra.
  - rewrite IHn, Nat2Z.inj_succ, <- Z.add_1_l, inject_Z_plus. unfold inject_Z at 2; lra.
Qed.

Lemma qsum_nonneg l : (forall x, In x l -> 0 <= x) -> 0 <= qsum l.
Proof.
  induction l; simpl; intros H; [lra|].
  assert (0 <= a) by auto. assert (0 <= qsum l) by auto. lra.
Qed.

Lemma qabs_nonneg x : 0 <= qabs x.
Proof. unfold qabs; destruct (Qlt_le_dec x 0); lra. Qed.

Lemma qabs_pos x : 0 <= x -> qabs x = x.
Proof. unfold qabs; destruct (Qlt_le_dec x 0); auto. intros; lra. Qed.

Lemma qltb_true x y : qltb x y = true <-> x < y.
Proof.
  unfold qltb. destruct (Qlt_le_dec x y); split; intros; auto; try discriminate. lra.
Qed.
Lemma qltb_false x y : qltb x y = false <-> y <= x.
Proof.
  unfold qltb. destruct (Qlt_le_dec x y); split; intros; auto; try discriminate. lra.
Qed.

Lemma rmapM_ok {A B} (f : A -> res B) g l :
  (forall x, In x l -> f x = Ok (g x)) -> rmapM f l = Ok (map g l).
Proof.
  induction l; simpl; intros H; auto.
  rewrite (H a) by auto. simpl. rewrite IHl by auto. reflexivity.
Qed.

Lemma rmapM_inv {A B} (f : A -> res B) l r :
  rmapM f l = Ok r -> Forall2 (fun x y => f x = Ok y) l r.
Proof.
  revert r; induction l; simpl; intros r H.
  - inversion H; constructor.
  - destruct (f a) eqn:E; simpl in H; [|discriminate].
    destruct (rmapM f l) eqn:E2; simpl in H; [|discriminate].
    inversion H; subst. constructor; auto.
Qed.

Lemma index_nth {A} (l : list A) i d :
  (i < length l)%nat -> index l i = Ok (nth i l d).
Proof.
  intros H. unfold index. rewrite (nth_error_nth' l d H). reflexivity.
Qed.

Lemma index_ok_lt {A} (l : list A) i x : index l i = Ok x -> (i < length l)%nat.
Proof.
  unfold index. destruct (nth_error l i) eqn:E; [|discriminate].
  intros _. apply nth_error_Some. congruence.
Qed.
