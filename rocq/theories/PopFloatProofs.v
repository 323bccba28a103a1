(** The sweep of [PopFloatModel] for any floats, NaN and infinities included. *)
From Coq Require Import Lia.
From Verif Require Import Base PopFloatModel.
From Coq Require Import SpecFloat.
Open Scope nat_scope.

Section sweep.
Variables (n : nat) (start : spec_float) (cum : list spec_float).
Notation below i c := (SFltb (fposition n start i) c).

Lemma fsweep_Ok : forall fuel i j l, fsweep fuel n start cum i j = Ok l ->
  length l = n - i /\
  forall k a, nth_error l k = Some a -> j <= a /\ a < length cum /\
    (exists c, nth_error cum a = Some c /\ below (i + k) c = true) /\
    (forall k' b, k' < k -> nth_error l k' = Some b -> b <= a) /\
    (forall b c, j <= b < a -> nth_error cum b = Some c -> exists k', k' <= k /\ below (i + k') c = false).
Proof.
  induction fuel as [|f IH]; intros i j l h; [discriminate|]. cbn [fsweep] in h.
  destruct (Nat.ltb_spec i n) as [hi|hi].
  2:{ injection h as <-. split; [cbn; lia|]. intros [|k] a e; discriminate. }
  unfold index in h. destruct (nth_error cum j) as [c|] eqn:ec; [|discriminate]. cbn [rbind] in h.
  assert (hj : j < length cum) by (apply nth_error_Some; congruence).
  destruct (below i c) eqn:eb.
  - destruct (fsweep f n start cum (S i) j) as [l'|] eqn:er; [|discriminate]. injection h as <-.
    destruct (IH _ _ _ er) as (e1 & e2). split; [cbn; lia|]. intros [|k] a e; cbn in e.
    + injection e as <-. repeat split; try lia.
      exists c. split; [exact ec|]. now rewrite Nat.add_0_r.
    + destruct (e2 k a e) as (a1 & a2 & (c' & a3 & a4) & a5 & a6). repeat split; try assumption.
      * exists c'. split; [exact a3|]. replace (i + S k) with (S i + k) by lia. exact a4.
      * intros [|k'] b hk hb; cbn in hb; [injection hb as <-; exact a1|]. apply (a5 k'); [lia|exact hb].
      * intros b c'' hb hc. destruct (a6 b c'' hb hc) as (k' & h1 & h2). exists (S k'). split; [lia|].
        replace (i + S k') with (S i + k') by lia. exact h2.
  - destruct (IH _ _ _ h) as (e1 & e2). split; [exact e1|]. intros k a e.
    destruct (e2 k a e) as (a1 & a2 & a3 & a5 & a6). repeat split; try assumption; try lia.
    intros b c' hb hc. destruct (Nat.eq_dec b j) as [->|hne].
    + exists 0. split; [lia|]. rewrite Nat.add_0_r. congruence.
    + apply (a6 b c'); [lia|exact hc].
Qed.

Lemma fsweep_Err : forall fuel i j e, (n - i) + (length cum - j) < fuel -> j <= length cum ->
  fsweep fuel n start cum i j = Err e ->
  e = IndexError /\ (j = length cum \/ exists i' c, i <= i' < n /\ nth_error cum (length cum - 1) = Some c /\ below i' c = false).
Proof.
  induction fuel as [|f IH]; intros i j e hf hj h; [lia|]. cbn [fsweep] in h.
  destruct (Nat.ltb_spec i n) as [hi|hi]; [|discriminate].
  unfold index in h. destruct (nth_error cum j) as [c|] eqn:ec; cbn [rbind] in h.
  - assert (hj' : j < length cum) by (apply nth_error_Some; congruence).
    destruct (below i c) eqn:eb.
    + destruct (fsweep f n start cum (S i) j) as [l'|e'] eqn:er; [discriminate|]. injection h as <-.
      destruct (IH (S i) j e' ltac:(lia) ltac:(lia) er) as (h1 & [h2|(i' & c' & h2 & h3)]); split; try assumption; [lia|].
      right. exists i', c'. split; [lia|exact h3].
    + destruct (IH i (S j) e ltac:(lia) ltac:(lia) h) as (h1 & [h2|h2]); split; try assumption; right; [|exact h2].
      exists i, c. split; [lia|]. split; [|exact eb]. replace (length cum - 1) with j by lia. exact ec.
  - injection h as <-. split; [reflexivity|]. left. apply nth_error_None in ec. lia.
Qed.
End sweep.

Lemma fcumsum_from_len l a : length (fcumsum_from a l) = length l.
Proof. revert a. induction l as [|x l IH]; intro a; cbn; [reflexivity|]. now rewrite IH. Qed.
Lemma fcumsum_len l : length (fcumsum l) = length l.
Proof. destruct l; cbn; [reflexivity|]. now rewrite fcumsum_from_len. Qed.
