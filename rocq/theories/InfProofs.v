(** Proofs for the properties of the support code. *)
From Coq Require Import Bool Ascii String.
From Verif Require Import Base InfModel InfSpec.
Open Scope string_scope.

(** logger *)
Lemma flush_ok rank fmt msg : (forall m, exists s, fmt m = Ok s) ->
  exists o, flush rank fmt msg = Ok o /\ (o <> [] <-> rank = O).
Proof.
  intros H. unfold flush. destruct (Nat.eqb_spec rank 0).
  - destruct (H msg) as [s ->]. eexists. split; [reflexivity|]. split; [auto|discriminate].
  - eexists. split; [reflexivity|]. split; [contradiction | intros; contradiction].
Qed.
Lemma log_gated rank v own fmt c msg : plain c = true -> (forall m, exists s, fmt m = Ok s) ->
  exists o, log_call rank v own fmt c msg = Ok o /\
    (o <> [] <-> ((level c <= v)%Z /\ (rank = O \/ (c = CWarn /\ own = true)))).
Proof.
  intros Hc H.
  assert (G : forall m, exists o, flush rank fmt m = Ok o /\ (o <> [] <-> rank = O)) by (intros; apply flush_ok; exact H).
  destruct c; try discriminate; cbn [log_call level].
  all: match goal with |- context[verbose_const ?n] => let x := eval vm_compute in (verbose_const n) in change (verbose_const n) with x end; cbn [rbind].
  2:{ destruct (Z.leb_spec 2 v); [|exists []; split; [reflexivity|]; split; [contradiction|intros [? _]; lia]].
      destruct (G (nl ++ "WARN: " ++ msg ++ nl)) as (o & -> & Ho). cbn [rbind]. destruct own.
      - destruct (H msg) as [s ->]. cbn [rmap]. eexists. split; [reflexivity|]. split; [intros _; split; [assumption|right; auto]|].
        intros _ E. apply app_eq_nil in E. destruct E; discriminate.
      - exists o. split; [reflexivity|]. rewrite Ho. split; [auto|]. intros [_ [?|[_ ?]]]; [assumption|discriminate]. }
  1: destruct (Z.ltb_spec 0 v). 3: destruct (Z.leb_spec 4 v). 5: destruct (Z.leb_spec 3 v). 7: destruct (Z.leb_spec 5 v).
  1,3,5,7: (destruct (G msg) as (o & -> & Ho); exists o; split; [reflexivity|]; rewrite Ho; split;
    [intros ->; split; [lia | auto] | intros [_ [?|[? _]]]; [assumption|discriminate]]).
  all: (exists []; split; [reflexivity|]; split; [contradiction|intros [? _]; lia]).
Qed.
Lemma log_error_raises rank v own fmt msg : log_call rank v own fmt CError msg = Err NameError.
Proof. reflexivity. Qed.
Lemma log_debug_raises rank v own fmt msg c : In c [CDebug1; CDebug2; CDebug3; CDebug4] ->
  log_call rank v own fmt c msg = Err NameError.
Proof. intros [<-|[<-|[<-|[<-|[]]]]]; reflexivity. Qed.
Lemma log_percent rank v own fmt e msg : rank = O -> (4 <= v)%Z -> fmt msg = Err e ->
  log_call rank v own fmt CInfo msg = Err e.
Proof.
  intros -> Hv E. cbn [log_call].
  change (verbose_const "VERBOSE_INFO") with (Ok 4%Z). cbn [rbind]. destruct (Z.leb_spec 4 v); [|lia].
  unfold flush. cbn [Nat.eqb]. rewrite E. reflexivity.
Qed.

Lemma length_append a b : String.length (a ++ b) = (String.length a + String.length b)%nat.
Proof. induction a; cbn; [reflexivity|]. now rewrite IHa. Qed.
Lemma length_rep n c : String.length (rep n c) = n.
Proof. induction n; cbn; [reflexivity|]. now rewrite IHn. Qed.
Definition ruler (level : Z) : Z := if (level =? 2)%Z then 60%Z else 80%Z.
Lemma title_widths_ok L msg : (0 <= L)%Z ->
  (Z.of_nat (Z.to_nat (fst (title_widths L msg)) + Z.to_nat (snd (title_widths L msg))) =
   Z.max 0 (L - Z.of_nat (String.length msg)))%Z /\
  (fst (title_widths L msg) <= snd (title_widths L msg) <= fst (title_widths L msg) + 1)%Z.
Proof.
  intros HL. unfold title_widths. cbn [fst snd]. set (n := Z.of_nat (String.length msg)).
  pose proof (Z.div_mod (L - n) 2 ltac:(lia)). pose proof (Z.mod_pos_bound (L - n) 2 ltac:(lia)). lia.
Qed.
Lemma title_length level msg :
  Z.of_nat (String.length (task_title level msg)) = (3 + Z.max (ruler level) (Z.of_nat (String.length msg)))%Z.
Proof.
  unfold task_title, ruler, repz. destruct (level =? 2)%Z; cbv zeta;
  rewrite !length_append, !length_rep; cbn [String.length nl].
  - destruct (title_widths_ok 60 msg ltac:(lia)) as [H _]. lia.
  - destruct (title_widths_ok 80 msg ltac:(lia)) as [H _]. lia.
Qed.

Lemma shows_cases v l : In v verbosities -> In l method_names -> exists b, logger_shows v l = Ok b.
Proof.
  cbn. intros Hv Hl.
  repeat match goal with H : _ \/ _ |- _ => destruct H as [<-|H] | H : False |- _ => destruct H end;
  (eexists; reflexivity).
Qed.
Lemma critical_first v l : In v verbosities -> In l method_names ->
  logger_shows v l = Ok true -> logger_shows v "CRITICAL" = Ok true.
Proof.
  cbn [verbosities method_names In]. intros Hv Hl H.
  repeat match goal with H : _ \/ _ |- _ => destruct H as [<-|H] | H : False |- _ => destruct H end;
  vm_compute in H |- *; congruence.
Qed.
Lemma error_hidden : exists v l l', In v verbosities /\ In l method_names /\ In l' method_names /\
  (severity l < severity l')%Z /\ logger_shows v l = Ok true /\ logger_shows v l' = Ok false.
Proof. exists "INFO", "INFO", "ERROR". cbn. intuition. Qed.

(** communicator *)
Lemma allreduce_np v : match v with VNp _ | VArr _ => True | _ => False end -> allreduce v = Ok v.
Proof. destruct v; cbn; tauto. Qed.
Lemma allreduce_num q : allreduce (VNum q) = Err AttributeError.
Proof. reflexivity. Qed.
Lemma assign_arrays l old : List.length l = List.length old -> assign_all (SArr l) (RArr old) = Ok l.
Proof. intros H. cbn. rewrite H, Nat.eqb_refl. reflexivity. Qed.
Lemma mailbox_ok m tag l buf : List.length l = List.length buf -> recv (isend m tag l) tag buf = Ok l.
Proof. intros H. unfold recv, isend. cbn [lookup]. rewrite Nat.eqb_refl. now apply assign_arrays. Qed.
Lemma mailbox_other m tag tag' l buf : tag <> tag' -> recv (isend m tag' l) tag buf = recv m tag buf.
Proof. intros H. unfold recv, isend. cbn [lookup]. destruct (Nat.eqb_spec tag' tag); [congruence|reflexivity]. Qed.
Lemma scatter_other l : List.length l <> 1%nat -> scatter (VArr l) = Err AssertionError.
Proof. intros H. unfold scatter. destruct (Nat.eqb_spec (List.length l) 1); [contradiction|reflexivity]. Qed.
Lemma scatter_one x : scatter (VArr [x]) = Ok (VNp x).
Proof. reflexivity. Qed.
Lemma exx_chunked_zero local : exx_chunked local = Ok (repeat 0%Q (List.length local)).
Proof. reflexivity. Qed.
Lemma exx_chunked_wrong : exists local, exx_chunked local <> Ok local.
Proof. exists [1%Q]. cbn. discriminate. Qed.
Lemma debug_fields_raises xi junk : debug_fields xi junk = Err ValueError.
Proof. reflexivity. Qed.

(** backend *)
Lemma documented_ok e st : has_floats e -> Forall (fun x =>
  let '(s, n, k, t) := x in
  set_backend e s st = if installed e n then ((k, t), None) else (st, Some RuntimeError)) documented.
Proof.
  intros [Hn Ht].
  repeat match goal with H : Forall _ (_ :: _) |- _ => inversion H; subst; clear H | H : Forall _ [] |- _ => clear H end.
  destruct e as [t c a nh th]. cbn [np_has torch_has] in *.
  repeat (apply Forall_cons; [ cbn [documented installed torch_ok cuda_ok ta_ok] |]); try apply Forall_nil;
  unfold set_backend; cbn [torch_ok cuda_ok ta_ok];
  repeat match goal with |- context[String.prefix ?x ?y] => let v := eval vm_compute in (String.prefix x y) in change (String.prefix x y) with v
   | |- context[count dot ?y] => let v := eval vm_compute in (count dot y) in change (count dot y) with v
   | |- context[split dot ?y] => let v := eval vm_compute in (split dot y) in change (split dot y) with v end;
  cbn [andb negb]; destruct t; destruct c; cbn [andb negb];
  unfold select, assign; repeat match goal with |- context[?x =? ?y] => let v := eval vm_compute in (x =? y) in change (x =? y) with v end;
  cbn [np_has torch_has]; repeat match goal with H : _ = true |- _ => rewrite H end; reflexivity.
Qed.
Lemma ta_plain e st : In "TiledArray" documented_ta /\ In "TiledArray.sparse" documented_ta /\
  set_backend e "TiledArray" st = (if ta_ok e then ((TAB, snd st), None) else (st, Some RuntimeError)) /\
  set_backend e "TiledArray.sparse" st = (if ta_ok e then ((TAB, snd st), None) else (st, Some RuntimeError)).
Proof. cbn. destruct (ta_ok e); intuition. Qed.
Lemma ta_cuda e st : ta_ok e = true -> In "TiledArray.cuda" documented_ta /\ In "TiledArray.cuda.sparse" documented_ta /\
  set_backend e "TiledArray.cuda" st = (st, Some ValueError) /\ set_backend e "TiledArray.cuda.sparse" st = (st, Some ValueError).
Proof.
  intros H. split; [cbn; tauto|]. split; [cbn; tauto|]. unfold set_backend. rewrite H. cbn. split; reflexivity.
Qed.
Lemma cupy_raises e st : set_backend e "cupy" st = (st, Some NameError).
Proof. reflexivity. Qed.

Lemma prefix_app a b : String.prefix a (a ++ b) = true.
Proof. induction a; cbn; [destruct b; reflexivity|]. destruct (ascii_dec a a); [exact IHa | congruence]. Qed.
Lemma split_join c : forall s l, split c s = l -> l <> [] /\ s = String.concat (String c "") l.
Proof.
  induction s as [|a s IH]; intros l <-; cbn [split].
  - split; [discriminate|reflexivity].
  - destruct (IH _ eq_refl) as [N E]. destruct (Ascii.eqb_spec a c) as [->|NE].
    + split; [discriminate|]. rewrite E at 1. destruct (split c s); [congruence|]. reflexivity.
    + destruct (split c s) as [|p ps]; [congruence|]. split; [discriminate|].
      rewrite E at 1. destruct ps; reflexivity.
Qed.

Lemma select_ok e n d t st st' : select e n d t st = (st', None) ->
  (n = "numpy" /\ d = "cpu" /\ st' = (NumpyB, t) /\ np_has e t = true) \/
  (n = "torch" /\ d = "cpu" /\ st' = (TorchB, t) /\ torch_has e t = true) \/
  (n = "torch" /\ d = "cuda" /\ st' = (TorchCudaB, t) /\ torch_has e t = true) \/
  (n = "TiledArray" /\ d = "cpu" /\ st' = (TAB, snd st)).
Proof.
  unfold select, assign.
  destruct (String.eqb_spec n "numpy").
  { destruct (String.eqb_spec d "cpu"); [|discriminate]. destruct (np_has e t) eqn:E; [|discriminate]. intros H; injection H as <-. auto. }
  destruct (n =? "cupy"); [discriminate|].
  destruct (String.eqb_spec n "torch").
  { destruct (String.eqb_spec d "cpu"); [|destruct (String.eqb_spec d "cuda"); [|discriminate]];
    (destruct (torch_has e t) eqn:E; [|discriminate]); intros H; injection H as <-; auto 10. }
  destruct (String.eqb_spec n "TiledArray"); [|discriminate].
  destruct (String.eqb_spec d "cpu"); [|discriminate]. intros H; injection H as <-. auto 10.
Qed.
(** what can be selected, by which name *)
Lemma set_backend_ok e s st st' : set_backend e s st = (st', None) ->
  (exists t, (s = "numpy" \/ s = "numpy." ++ t \/ s = "numpy.cpu." ++ t) /\ st' = (NumpyB, t) /\ np_has e t = true) \/
  (exists t, (s = "torch" \/ s = "torch." ++ t \/ s = "torch.cpu." ++ t) /\ torch_ok e = true /\ st' = (TorchB, t) /\ torch_has e t = true) \/
  (exists t, (s = "torch.cuda" \/ s = "torch.cuda." ++ t) /\ torch_ok e = true /\ cuda_ok e = true /\ st' = (TorchCudaB, t) /\ torch_has e t = true) \/
  (exists t, (s = "TiledArray" \/ s = "TiledArray." ++ t \/ s = "TiledArray.cpu." ++ t) /\ ta_ok e = true /\ st' = (TAB, snd st)).
Proof.
  unfold set_backend.
  destruct (String.prefix "torch" s && negb (torch_ok e))%bool eqn:E1; [discriminate|].
  destruct (String.prefix "torch.cuda" s && negb (cuda_ok e))%bool eqn:E2; [discriminate|].
  destruct (String.prefix "TiledArray" s && negb (ta_ok e))%bool eqn:E3; [discriminate|].
  assert (T : forall x, s = "torch" ++ x -> torch_ok e = true).
  { intros x ->. rewrite prefix_app in E1. destruct (torch_ok e); [reflexivity|discriminate]. }
  assert (C : forall x, s = "torch.cuda" ++ x -> cuda_ok e = true).
  { intros x ->. rewrite prefix_app in E2. destruct (cuda_ok e); [reflexivity|discriminate]. }
  assert (A : forall x, s = "TiledArray" ++ x -> ta_ok e = true).
  { intros x ->. rewrite prefix_app in E3. destruct (ta_ok e); [reflexivity|discriminate]. }
  clear E1 E2 E3.
  destruct (count dot s) as [|[|[|]]]; [| | |discriminate].
  - intros H. apply select_ok in H. destruct H as [(-> & _ & -> & H)|[(-> & _ & -> & H)|[(_ & K & _)|(-> & _ & ->)]]].
    + left. eauto 10.
    + right. left. exists "float64". split; [auto|]. split; [apply (T ""); reflexivity|]. auto.
    + discriminate.
    + right. right. right. exists "". split; [auto|]. split; [apply (A ""); reflexivity|reflexivity].
  - destruct (split dot s) as [|n [|d [|]]] eqn:ES; try discriminate.
    destruct (split_join _ _ _ ES) as [_ EJ]. cbn [String.concat] in EJ. unfold dot in EJ.
    destruct (String.eqb_spec d "cuda") as [->|ND].
    + intros H. apply select_ok in H. destruct H as [(_ & K & _)|[(_ & K & _)|[(-> & _ & -> & H)|(_ & K & _)]]]; try discriminate.
      right. right. left. exists "float64". split; [left; exact EJ|]. split; [apply (T ".cuda"); exact EJ|].
      split; [apply (C ""); exact EJ|]. auto.
    + intros H. apply select_ok in H. destruct H as [(-> & _ & -> & H)|[(-> & _ & -> & H)|[(_ & K & _)|(-> & _ & ->)]]].
      * left. exists d. auto 10.
      * right. left. exists d. split; [auto|]. split; [apply (T ("." ++ d)); exact EJ|]. auto.
      * discriminate.
      * right. right. right. exists d. split; [auto|]. split; [apply (A ("." ++ d)); exact EJ|reflexivity].
  - destruct (split dot s) as [|n [|d [|t [|]]]] eqn:ES; try discriminate.
    destruct (split_join _ _ _ ES) as [_ EJ]. cbn [String.concat] in EJ. unfold dot in EJ.
    intros H. apply select_ok in H.
    destruct H as [(-> & -> & -> & H)|[(-> & -> & -> & H)|[(-> & -> & -> & H)|(-> & -> & ->)]]].
    + left. exists t. auto 10.
    + right. left. exists t. split; [auto|]. split; [apply (T (".cpu." ++ t)); exact EJ|]. auto.
    + right. right. left. exists t. split; [auto|]. split; [apply (T (".cuda." ++ t)); exact EJ|].
      split; [apply (C ("." ++ t)); exact EJ|]. auto.
    + right. right. right. exists t. split; [auto|]. split; [apply (A (".cpu." ++ t)); exact EJ|reflexivity].
Qed.
Lemma set_backend_undocumented : exists e s st, ~ In s (map (fun x => fst (fst (fst x))) documented ++ documented_ta)%list /\
  snd (set_backend e s st) = None /\ fst (set_backend e s st) = (NumpyB, "sin").
Proof.
  exists (Env false false false (fun _ => true) (fun _ => false)), "numpy.sin", (NumpyB, "float64").
  split; [|split; reflexivity]. cbn. intuition discriminate.
Qed.

Lemma set_backend_atomic e s st st' x : set_backend e s st = (st', Some x) -> x <> AttributeError -> st' = st.
Proof.
  assert (S : forall n d t st' x, select e n d t st = (st', Some x) -> x <> AttributeError -> st' = st).
  { clear. intros n d t st' x H N. revert H. unfold select, assign.
    repeat match goal with |- context[if ?b then _ else _] => destruct b end; intros H; injection H; intros; subst; congruence. }
  unfold set_backend. intros H N. revert H.
  destruct (String.prefix "torch" s && negb (torch_ok e))%bool; [intros H; injection H; congruence|].
  destruct (String.prefix "torch.cuda" s && negb (cuda_ok e))%bool; [intros H; injection H; congruence|].
  destruct (String.prefix "TiledArray" s && negb (ta_ok e))%bool; [intros H; injection H; congruence|].
  destruct (count dot s) as [|[|[|]]].
  - intros H. exact (S _ _ _ _ _ H N).
  - destruct (split dot s) as [|n [|d [|]]]; try (intros H; injection H; congruence).
    destruct (d =? "cuda"); intros H; exact (S _ _ _ _ _ H N).
  - destruct (split dot s) as [|n [|d [|t [|]]]]; try (intros H; injection H; congruence).
    intros H; exact (S _ _ _ _ _ H N).
  - intros H; injection H; congruence.
Qed.
Lemma set_backend_half : exists e s st st' x, set_backend e s st = (st', Some x) /\ st' <> st.
Proof.
  exists (Env true false false (fun _ => true) (fun _ => false)), "torch.flaot32", (NumpyB, "float64"), (TorchB, "float64"), AttributeError.
  split; [reflexivity | discriminate].
Qed.

(** decorators *)
Lemma deprecated_ok A B (f : A -> res B) a : deprecated f a = rmap Some (f a).
Proof. reflexivity. Qed.
Lemma wall_time_drops A B (f : A -> res B) a b : f a = Ok b -> wall_time f a = Ok None.
Proof. intros H. unfold wall_time. rewrite H. reflexivity. Qed.
Lemma wall_time_wrong : exists (f : Z -> res Z) a b, f a = Ok b /\ wall_time f a <> Ok (Some b).
Proof. exists (fun x => Ok x), 0%Z, 0%Z. split; [reflexivity|discriminate]. Qed.
