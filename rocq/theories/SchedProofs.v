(** Proofs about the time-stepping schedule and the property accumulator. *)
From Verif Require Import Base BaseProofs SchedModel SchedSpec.
From Coq Require Import Lqa.
Open Scope Q_scope.

Lemma div_S_mod n f : (0 < f)%nat ->
  (S n / f = n / f + (if Nat.eqb (Nat.modulo (S n) f) 0 then 1 else 0))%nat.
Proof.
  intros Hf. pose proof (Nat.div_mod n f ltac:(lia)). pose proof (Nat.div_mod (S n) f ltac:(lia)).
  pose proof (Nat.mod_upper_bound n f ltac:(lia)). pose proof (Nat.mod_upper_bound (S n) f ltac:(lia)).
  destruct (Nat.eqb_spec (Nat.modulo (S n) f) 0) as [E|E].
  - rewrite E in *. nia.
  - nia.
Qed.

Lemma filter_flat_map {A B} (p : B -> bool) (g : A -> list B) l :
  filter p (flat_map g l) = flat_map (fun x => filter p (g x)) l.
Proof. induction l; simpl; auto. rewrite filter_app, IHl. auto. Qed.

Lemma mod_S_eq n f : (0 < f)%nat -> Nat.modulo (S n) f = 0%nat -> (S n = f * (S n / f))%nat.
Proof. intros Hf E. pose proof (Nat.div_mod (S n) f ltac:(lia)). lia. Qed.

Lemma recorded_steps rf cf n : (0 < cf)%nat ->
  filter is_rec (flat_map (step_events rf cf) (seq 0 n)) =
  map (fun k => Record_ (k * cf - 1)) (seq 1 (n / cf)).
Proof.
  intros Hc. rewrite filter_flat_map. induction n.
  - rewrite Nat.div_0_l by lia. reflexivity.
  - rewrite seq_S, flat_map_app, IHn. cbn [plus flat_map]. rewrite app_nil_r.
    rewrite (div_S_mod n cf Hc).
    unfold step_events. rewrite !filter_app.
    assert (E1 : filter is_rec (if Nat.eqb (Nat.modulo (S n) rf) 0 then [Ortho] else []) = [])
      by (destruct (Nat.eqb _ _); reflexivity).
    rewrite E1. cbn [filter is_rec app].
    destruct (Nat.eqb_spec (Nat.modulo (S n) cf) 0) as [E|E].
    + rewrite seq_app, map_app. f_equal. cbn [seq map filter is_rec].
      do 2 f_equal. pose proof (mod_S_eq n cf Hc E) as M.
      pose proof (div_S_mod n cf Hc) as D. rewrite E in D. simpl in D. nia.
    + rewrite Nat.add_0_r. simpl. now rewrite app_nil_r.
Qed.

Lemma propagate_steps rf cf n :
  filter is_prop (flat_map (step_events rf cf) (seq 0 n)) = map Propagate (seq 0 n).
Proof.
  rewrite filter_flat_map. induction (seq 0 n); simpl; auto. rewrite <- IHl.
  unfold step_events.
  destruct (Nat.eqb (Nat.modulo (S a) rf) 0), (Nat.eqb (Nat.modulo (S a) cf) 0); reflexivity.
Qed.

Lemma ortho_count rf cf n : (0 < rf)%nat ->
  length (filter is_ortho (flat_map (step_events rf cf) (seq 0 n))) = (n / rf)%nat.
Proof.
  intros Hr. rewrite filter_flat_map. induction n.
  - now rewrite Nat.div_0_l by lia.
  - rewrite seq_S, flat_map_app, app_length, IHn. cbn [plus flat_map]. rewrite app_nil_r.
    rewrite (div_S_mod n rf Hr). f_equal. unfold step_events.
    destruct (Nat.eqb (Nat.modulo (S n) rf) 0), (Nat.eqb (Nat.modulo (S n) cf) 0); reflexivity.
Qed.

Lemma time_list_filter dt evs : time_list dt evs = flat_map (time_of dt) (filter is_rec evs).
Proof.
  unfold time_list. induction evs as [|e evs IH]; auto.
  destruct e; simpl; auto. now rewrite IH.
Qed.

Lemma run_ok rf cf n : (0 < rf)%nat -> (0 < cf)%nat ->
  run_events rf cf n = Ok ([Ortho; Stack (-1)] ++ flat_map (step_events rf cf) (seq 0 n)).
Proof.
  intros H1 H2. unfold run_events.
  destruct (Nat.eqb_spec rf 0), (Nat.eqb_spec cf 0); try lia. reflexivity.
Qed.

(** Immediately before [Propagate k] an [Ortho] happens iff (k+1) mod rf = 0
    (and the one of the preamble is separated from the loop by [Stack (-1)]). *)
Lemma ortho_before rf cf n k : (0 < rf)%nat -> (0 < cf)%nat -> (k < n)%nat ->
  exists pre post,
   [Ortho; Stack (-1)] ++ flat_map (step_events rf cf) (seq 0 n) =
     pre ++ (if Nat.eqb (Nat.modulo (S k) rf) 0 then [Ortho] else []) ++
       [Propagate k; Control k; Stack (Z.of_nat k)] ++ post /\
   exists pre' e, pre = pre' ++ [e] /\ e <> Ortho.
Proof.
  intros H1 H2 Hk.
  exists ([Ortho; Stack (-1)] ++ flat_map (step_events rf cf) (seq 0 k)).
  exists ((if Nat.eqb (Nat.modulo (S k) cf) 0 then [Record_ k] else []) ++
          flat_map (step_events rf cf) (seq (S k) (n - S k))).
  split.
  - replace n with (k + S (n - S k))%nat at 1 by lia.
    rewrite seq_app, flat_map_app. cbn [plus seq flat_map]. unfold step_events at 2.
    rewrite <- !app_assoc. reflexivity.
  - destruct k.
    + exists [Ortho], (Stack (-1)). split; [reflexivity|discriminate].
    + rewrite seq_S, flat_map_app. cbn [plus flat_map]. rewrite app_nil_r.
      unfold step_events at 2.
      destruct (Nat.eqb (Nat.modulo (S k) cf) 0).
      * exists ([Ortho; Stack (-1)] ++ flat_map (step_events rf cf) (seq 0 k) ++
          (if Nat.eqb (Nat.modulo (S k) rf) 0 then [Ortho] else []) ++
          [Propagate k; Control k; Stack (Z.of_nat k)]), (Record_ k).
        split; [|discriminate]. rewrite <- !app_assoc. reflexivity.
      * exists ([Ortho; Stack (-1)] ++ flat_map (step_events rf cf) (seq 0 k) ++
          (if Nat.eqb (Nat.modulo (S k) rf) 0 then [Ortho] else []) ++ [Propagate k; Control k]),
          (Stack (Z.of_nat k)). split; [|discriminate].
        rewrite app_nil_r, <- !app_assoc. reflexivity.
Qed.

Lemma schedule rf cf n dt : (0 < rf)%nat -> (0 < cf)%nat ->
  exists evs, run_events rf cf n = Ok evs /\
    filter is_prop evs = map Propagate (seq 0 n) /\
    length (filter is_rec evs) = (n / cf)%nat /\
    time_list dt evs = map (fun k => dt * inject_Z (Z.of_nat (k * cf - 1))) (seq 1 (n / cf)) /\
    length (filter is_ortho evs) = S (n / rf) /\
    firstn 1 evs = [Ortho] /\
    forall k, (k < n)%nat -> exists pre post,
      evs = pre ++ (if Nat.eqb (Nat.modulo (S k) rf) 0 then [Ortho] else []) ++
             [Propagate k; Control k; Stack (Z.of_nat k)] ++ post /\
      exists pre' e, pre = pre' ++ [e] /\ e <> Ortho.
Proof.
  intros H1 H2. eexists. split; [apply run_ok; auto|].
  split; [|split; [|split; [|split; [|split]]]].
  - cbn [app filter is_prop]. apply propagate_steps.
  - cbn [app filter is_rec]. rewrite recorded_steps by auto. now rewrite map_length, seq_length.
  - rewrite time_list_filter. cbn [app filter is_rec]. rewrite recorded_steps by auto.
    clear. induction (seq 1 (n / cf)); simpl; auto. now rewrite IHl.
  - cbn [app filter is_ortho length]. f_equal. apply ortho_count; auto.
  - reflexivity.
  - intros k Hk. apply ortho_before; auto.
Qed.

(** ** Property accumulator *)

Lemma zip_add_length : forall a b, length a = length b -> length (zip_add a b) = length a.
Proof. induction a; destruct b; simpl; intros H; auto; discriminate. Qed.

Definition req (a b : row) := r_w a == r_w b /\ r_u a == r_u b /\ r_h a == r_h b /\ r_l a == r_l b.

Lemma rowsum_zip : forall a b, length a = length b ->
  req (rowsum (zip_add a b)) (radd (rowsum a) (rowsum b)).
Proof.
  induction a as [|x a IH]; destruct b as [|y b]; simpl; intros H; try discriminate.
  - unfold req, radd; simpl. repeat split; lra.
  - inversion H. destruct (IH b H1) as [A1 [A2 [A3 A4]]]. unfold req, radd in *; simpl in *.
    rewrite A1, A2, A3, A4. repeat split; lra.
Qed.

Lemma rowsum_zero n : rowsum (repeat row0 n) = row0 \/ req (rowsum (repeat row0 n)) row0.
Proof. right. induction n; simpl; unfold req in *; simpl in *; repeat split; lra. Qed.

Lemma rowsum_app a b : req (rowsum (a ++ b)) (radd (rowsum a) (rowsum b)).
Proof.
  induction a as [|x a IH]; simpl.
  - unfold req, radd; simpl; repeat split; lra.
  - destruct IH as [A1 [A2 [A3 A4]]]. unfold req, radd in *; simpl in *.
    rewrite A1, A2, A3, A4. repeat split; lra.
Qed.

Lemma stack_run_app freq : forall h1 step h2 s,
  stack_run freq step (h1 ++ h2) s = stack_run freq (step + length h1) h2 (stack_run freq step h1 s).
Proof.
  induction h1; intros step h2 s; simpl.
  - now rewrite Nat.add_0_r.
  - rewrite IHh1. f_equal. lia.
Qed.

(** Within a window nothing is reduced; the accumulated sums are the sums of
    the window. *)
Lemma stack_run_partial freq size : (0 < freq)%nat -> forall h step s,
  length (buffers s) = size -> (forall d, In d h -> length d = size) ->
  (Nat.modulo step freq + length h < freq)%nat ->
  let s' := stack_run freq step h s in
  length (buffers s') = size /\ eshift s' = eshift s /\
  req (rowsum (buffers s')) (radd (rowsum (buffers s)) (window h)).
Proof.
  intros Hf. induction h as [|d h IH]; intros step s HL HD HM.
  - simpl. repeat split; auto; unfold window; simpl; lra.
  - cbn [stack_run]. cbv zeta.
    assert (Hm : Nat.modulo (S step) freq = S (Nat.modulo step freq)).
    { cbn [length] in HM. rewrite <- Nat.add_1_r, <- Nat.add_mod_idemp_l by lia.
      rewrite Nat.mod_small by lia. lia. }
    unfold stack. rewrite Hm. cbn [Nat.eqb].
    assert (Hd : length d = size) by (apply HD; simpl; auto).
    destruct (IH (S step) (mkps (zip_add (buffers s) d) (eshift s))) as [A [B C]].
    + cbn [buffers]. rewrite zip_add_length; congruence.
    + intros; apply HD; simpl; auto.
    + rewrite Hm. cbn [length] in HM. lia.
    + split; [exact A|]. split; [exact B|].
      cbn [buffers] in C.
      destruct (rowsum_zip (buffers s) d ltac:(congruence)) as [Z1 [Z2 [Z3 Z4]]].
      destruct C as [C1 [C2 [C3 C4]]]. unfold req, radd, window in *; simpl in *.
      rewrite C1, C2, C3, C4, Z1, Z2, Z3, Z4. repeat split; lra.
Qed.

Lemma repeat_row0_req n : req (rowsum (repeat row0 n)) row0.
Proof. destruct (rowsum_zero n) as [->|]; auto. unfold req; repeat split; reflexivity. Qed.

(** A full window, starting with an empty accumulator at a window boundary. *)
Lemma stack_run_window freq size : (0 < freq)%nat -> forall w step s,
  buffers s = repeat row0 size -> (forall d, In d w -> length d = size) ->
  length w = freq -> Nat.modulo step freq = 0%nat ->
  let s' := stack_run freq step w s in
  buffers s' = repeat row0 size /\ eshift s' == r_h (window w) / r_w (window w).
Proof.
  intros Hf w step s HB HD HL HM.
  destruct (exists_last (l := w)) as [h [d E]]; [destruct w; simpl in *; [lia|congruence]|].
  subst w. rewrite app_length in HL. simpl in HL.
  cbv zeta. rewrite stack_run_app. cbn [stack_run].
  destruct (stack_run_partial freq size Hf h step s) as [A [B C]].
  - rewrite HB. apply repeat_length.
  - intros; apply HD. apply in_or_app; auto.
  - rewrite HM. lia.
  - set (s1 := stack_run freq step h s) in *.
    assert (Hd : length d = size) by (apply HD; apply in_or_app; simpl; auto).
    unfold stack.
    assert (Hm : Nat.modulo (S (step + length h)) freq = 0%nat).
    { replace (S (step + length h)) with (step + freq)%nat by lia.
      rewrite <- Nat.add_mod_idemp_l, HM by lia. simpl. apply Nat.mod_same. lia. }
    rewrite Hm. cbn [Nat.eqb buffers eshift].
    rewrite zip_add_length by congruence. rewrite A. split; [reflexivity|].
    destruct (rowsum_zip (buffers s1) d ltac:(congruence)) as [Z1 [_ [Z3 _]]].
    destruct C as [C1 [_ [C3 _]]].
    pose proof (repeat_row0_req size) as [R1 [_ [R3 _]]].
    unfold window. rewrite map_app. cbn [map].
    destruct (rowsum_app (map rowsum h) [rowsum d]) as [W1 [_ [W3 _]]].
    rewrite HB in C1, C3. unfold radd, window in *; simpl in *.
    assert (E1 : r_w (rowsum (zip_add (buffers s1) d)) == r_w (rowsum (map rowsum h ++ [rowsum d])))
      by (rewrite Z1, W1, C1, R1; lra).
    assert (E3 : r_h (rowsum (zip_add (buffers s1) d)) == r_h (rowsum (map rowsum h ++ [rowsum d])))
      by (rewrite Z3, W3, C3, R3; lra).
    rewrite E1, E3. reflexivity.
Qed.

(** The whole run: [k] windows followed by [r < freq] more steps. *)
Lemma stack_run_boundary freq size : (0 < freq)%nat -> forall ws step s,
  buffers s = repeat row0 size ->
  (forall w, In w ws -> length w = freq /\ forall d, In d w -> length d = size) ->
  Nat.modulo step freq = 0%nat ->
  buffers (stack_run freq step (concat ws) s) = repeat row0 size.
Proof.
  intros Hf. induction ws as [|w ws IH]; intros step s HB HW HM; [exact HB|].
  cbn [concat]. rewrite stack_run_app.
  destruct (HW w (or_introl eq_refl)) as [HL HD].
  apply IH.
  - apply (stack_run_window freq size Hf w step s HB HD HL HM).
  - intros; apply HW; simpl; auto.
  - rewrite HL. rewrite <- Nat.add_mod_idemp_l, HM by lia. simpl. apply Nat.mod_same. lia.
Qed.

Lemma eshift_window freq size e0 ws w rest : (0 < freq)%nat ->
  (forall v, In v (ws ++ [w]) -> length v = freq /\ forall d, In d v -> length d = size) ->
  (length rest < freq)%nat -> (forall d, In d rest -> length d = size) ->
  let at_reduction := stack_run freq 0 (concat (ws ++ [w])) (ps_init size e0) in
  let later := stack_run freq 0 (concat (ws ++ [w]) ++ rest) (ps_init size e0) in
  buffers at_reduction = repeat row0 size /\
  eshift at_reduction == r_h (window w) / r_w (window w) /\
  eshift later = eshift at_reduction.
Proof.
  intros Hf HW HR HD. cbv zeta. rewrite concat_app. cbn [concat]. rewrite app_nil_r.
  assert (Hlen : forall l, (forall v, In v l -> length v = freq) ->
            Nat.modulo (length (concat l : list (list row))) freq = 0%nat).
  { induction l as [|v l IH]; intros H; [apply Nat.mod_0_l; lia|].
    cbn [concat]. rewrite app_length, (H v) by (simpl; auto).
    rewrite Nat.add_comm, <- Nat.add_mod_idemp_l, IH by (try lia; intros; apply H; simpl; auto).
    apply Nat.mod_same. lia. }
  assert (HM : Nat.modulo (0 + length (concat ws)) freq = 0%nat).
  { apply Hlen. intros v Hv. apply HW. apply in_or_app; auto. }
  assert (HB : buffers (stack_run freq 0 (concat ws) (ps_init size e0)) = repeat row0 size).
  { apply stack_run_boundary; auto.
    - intros v Hv. apply HW. apply in_or_app; auto.
    - apply Nat.mod_0_l. lia. }
  destruct (HW w) as [HL HDw]; [apply in_or_app; simpl; auto|].
  destruct (stack_run_window freq size Hf w (0 + length (concat ws)) _ HB HDw HL HM) as [A B].
  rewrite (stack_run_app freq (concat ws ++ w) 0 rest), (stack_run_app freq (concat ws) 0 w).
  split; [exact A|]. split; [exact B|].
  destruct (stack_run_partial freq size Hf rest (0 + length (concat ws ++ w))
     (stack_run freq (0 + length (concat ws)) w (stack_run freq 0 (concat ws) (ps_init size e0))))
    as [_ [E _]].
  - rewrite A. apply repeat_length.
  - auto.
  - assert (M0 : Nat.modulo (0 + length (concat ws ++ w)) freq = 0%nat).
    { rewrite app_length, HL. replace (0 + (length (concat ws) + freq))%nat
        with (0 + length (concat ws) + freq)%nat by lia.
      rewrite <- Nat.add_mod_idemp_l, HM by lia. apply Nat.mod_same. lia. }
    rewrite M0. lia.
  - exact E.
Qed.

Lemma seed_ignored (G : Type) (seeded : Z -> G) size seed seed' (g : G) : (1 < size)%nat ->
  seed_rank seeded size false seed g = g /\
  seed_rank seeded size false seed g = seed_rank seeded size false seed' g.
Proof.
  intros H. unfold seed_rank. destruct (Nat.ltb_spec 1 size); [|lia]. split; reflexivity.
Qed.

Lemma seed_single (G : Type) (seeded : Z -> G) size debug seed (g g' : G) :
  (size <= 1)%nat \/ debug = true ->
  seed_rank seeded size debug seed g = seeded seed /\
  seed_rank seeded size debug seed g = seed_rank seeded size debug seed g'.
Proof.
  intros H. unfold seed_rank. destruct (Nat.ltb_spec 1 size), debug; simpl; auto.
  destruct H; [lia|discriminate].
Qed.
