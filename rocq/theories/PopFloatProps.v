From Coq Require Import Lia.
From Verif Require Import Base PopFloatModel PopFloatProofs.
From Coq Require Import SpecFloat.
Open Scope nat_scope.

(** C81, for double arithmetic with any weights, NaN and infinities included: a
    reconfiguration that ends has chosen as many walkers as there were, all of them
    walkers of the old population and in their order; each is one whose cumulative
    weight lies above its position, and no walker was passed over unless its
    cumulative weight does not lie above that or an earlier position.  Missing: it may
    fail to end, see C81_reconfiguration_float_overrun_refuted *)
Theorem C81_float_selection_partial weights k l : freconfiguration weights k = Ok l ->
  let n := length weights in
  let cum := fcumsum (map (fun w => fdiv w (fsum weights)) weights) in
  let pos := fposition n (funiform k (fdiv (fint 1) (fint (Z.of_nat n)))) in
  length l = n /\
  forall i a, nth_error l i = Some a -> a < n /\
    (exists c, nth_error cum a = Some c /\ SFltb (pos i) c = true) /\
    (forall i' b, i' < i -> nth_error l i' = Some b -> b <= a) /\
    (forall b c, b < a -> nth_error cum b = Some c -> exists i', i' <= i /\ SFltb (pos i') c = false).
Proof.
  intros h n cum pos. destruct (fsweep_Ok _ _ _ _ _ _ _ h) as (e1 & e2). split; [fold n in e1; lia|].
  intros i a e. destruct (e2 i a e) as (_ & a2 & a3 & a5 & a6). repeat split.
  - rewrite fcumsum_len, map_length in a2. exact a2.
  - exact a3.
  - exact a5.
  - intros b c hb hc. destruct (a6 b c ltac:(lia) hc) as (i' & h1 & h2). now exists i'.
Qed.
Print Assumptions C81_float_selection_partial.

(** the loop always stops, and can fail only with an index past the last walker, when a
    position does not lie below the last cumulative weight *)
Theorem C81_float_failure_partial weights k e : freconfiguration weights k = Err e ->
  let n := length weights in
  let cum := fcumsum (map (fun w => fdiv w (fsum weights)) weights) in
  let pos := fposition n (funiform k (fdiv (fint 1) (fint (Z.of_nat n)))) in
  e = IndexError /\ exists i c, i < n /\ nth_error cum (n - 1) = Some c /\ SFltb (pos i) c = false.
Proof.
  intros h n cum pos. unfold freconfiguration in h. cbv zeta in h. fold n in h.
  assert (hl : length cum = n) by (unfold cum; now rewrite fcumsum_len, map_length).
  fold cum in h.
  destruct (fsweep_Err n _ cum (S (n + n)) 0 0 e ltac:(lia) ltac:(lia) h) as (h1 & [h2|(i & c & h2 & h3 & h4)]).
  - rewrite hl in h2. cbn [fsweep] in h. rewrite <- h2 in h. discriminate.
  - split; [exact h1|]. exists i, c. rewrite hl in h3. split; [lia|]. split; assumption.
Qed.
Print Assumptions C81_float_failure_partial.

Example C81_float_example : freconfiguration [fint 1; fint 5; fint 1; fint 1] 5%Z = Ok [0; 1; 1; 2].
Proof. vm_compute. reflexivity. Qed.
