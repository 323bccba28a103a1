(** Properties of the support code: C63-C65, C70, C142-C144. *)
From Coq Require Import Bool Ascii String.
From Verif Require Import Base InfModel InfSpec InfProofs.
Open Scope string_scope.

(** C63.  log, warn, note, info and debug print exactly at their level, on
    rank 0 (warnings of an object with its own stream go to stderr on every
    rank), provided the message can be formatted; *)
Theorem C63_gated_partial : forall rank v own fmt c msg, plain c = true -> (forall m, exists s, fmt m = Ok s) ->
  exists o, log_call rank v own fmt c msg = Ok o /\
    (o <> [] <-> ((level c <= v)%Z /\ (rank = O \/ (c = CWarn /\ own = true)))).
Proof. exact log_gated. Qed.
Print Assumptions C63_gated_partial.
Example C63_ex : log_call 0 4 false (fun m => Ok m) CInfo "x" = Ok [ToRec ("x" ++ nl)] /\
  log_call 0 3 false (fun m => Ok m) CInfo "x" = Ok [].
Proof. split; reflexivity. Qed.
(** error and debug1-4 raise at any verbosity on any rank. *)
Theorem C63_error_refuted : forall rank v own fmt msg, log_call rank v own fmt CError msg = Err NameError.
Proof. exact log_error_raises. Qed.
Print Assumptions C63_error_refuted.
Theorem C63_debug_refuted : forall rank v own fmt msg c, In c [CDebug1; CDebug2; CDebug3; CDebug4] ->
  log_call rank v own fmt c msg = Err NameError.
Proof. exact log_debug_raises. Qed.
Print Assumptions C63_debug_refuted.
(** A message that cannot be formatted (for instance one with a bare % sign)
    raises when it is printed. *)
Theorem C63_percent_refuted : forall rank v own fmt e msg, rank = O -> (4 <= v)%Z -> fmt msg = Err e ->
  log_call rank v own fmt CInfo msg = Err e.
Proof. exact log_percent. Qed.
Print Assumptions C63_percent_refuted.

(** C142.  Critical messages appear whenever any other does ... *)
Theorem C142_critical_partial : forall v l, In v verbosities -> In l method_names ->
  logger_shows v l = Ok true -> logger_shows v "CRITICAL" = Ok true.
Proof. exact critical_first. Qed.
Print Assumptions C142_critical_partial.
(** ... but errors are hidden at the default verbosity, which shows info. *)
Theorem C142_error_refuted : exists v l l', In v verbosities /\ In l method_names /\ In l' method_names /\
  (severity l < severity l')%Z /\ logger_shows v l = Ok true /\ logger_shows v l' = Ok false.
Proof. exact error_hidden. Qed.
Print Assumptions C142_error_refuted.

(** C143. *)
Theorem C143_width : forall level msg,
  Z.of_nat (String.length (task_title level msg)) =
  (3 + Z.max (if (level =? 2)%Z then 60 else 80) (Z.of_nat (String.length msg)))%Z.
Proof. exact title_length. Qed.
Print Assumptions C143_width.
Theorem C143_centred : forall L msg, (0 <= L)%Z ->
  (Z.of_nat (Z.to_nat (fst (title_widths L msg)) + Z.to_nat (snd (title_widths L msg))) =
   Z.max 0 (L - Z.of_nat (String.length msg)))%Z /\
  (fst (title_widths L msg) <= snd (title_widths L msg) <= fst (title_widths L msg) + 1)%Z.
Proof. exact title_widths_ok. Qed.
Print Assumptions C143_centred.
Example C143_ex : String.length (task_title 1 "abc") = 83%nat.
Proof. reflexivity. Qed.

(** C64.  Numpy scalars and arrays come back from a reduction, equal-length
    arrays through the buffered calls, a single-entry array through scatter,
    a message through its tag. *)
Theorem C64_reduce_partial : forall v, match v with VNp _ | VArr _ => True | _ => False end -> allreduce v = Ok v.
Proof. exact allreduce_np. Qed.
Print Assumptions C64_reduce_partial.
Theorem C64_buffers_partial : forall l old, List.length l = List.length old -> assign_all (SArr l) (RArr old) = Ok l.
Proof. exact assign_arrays. Qed.
Print Assumptions C64_buffers_partial.
Theorem C64_mail_partial : forall m tag l buf, List.length l = List.length buf -> recv (isend m tag l) tag buf = Ok l.
Proof. exact mailbox_ok. Qed.
Print Assumptions C64_mail_partial.
Theorem C64_mail_other : forall m tag tag' l buf, tag <> tag' -> recv (isend m tag' l) tag buf = recv m tag buf.
Proof. exact mailbox_other. Qed.
Print Assumptions C64_mail_other.
Theorem C64_scatter_partial : forall x, scatter (VArr [x]) = Ok (VNp x).
Proof. exact scatter_one. Qed.
Print Assumptions C64_scatter_partial.
Theorem C64_scatter_other : forall l, List.length l <> 1%nat -> scatter (VArr l) = Err AssertionError.
Proof. exact scatter_other. Qed.
Print Assumptions C64_scatter_other.
(** Reducing a python number raises. *)
Theorem C64_number_refuted : forall q, allreduce (VNum q) = Err AttributeError.
Proof. exact allreduce_num. Qed.
Print Assumptions C64_number_refuted.
(** The buffer specifications that the package itself passes are not
    understood: the chunked exchange energies come out zero ... *)
Theorem C64_exx_zero : forall local, exx_chunked local = Ok (repeat 0%Q (List.length local)).
Proof. exact exx_chunked_zero. Qed.
Print Assumptions C64_exx_zero.
Theorem C64_exx_refuted : exists local, exx_chunked local <> Ok local.
Proof. exact exx_chunked_wrong. Qed.
Print Assumptions C64_exx_refuted.
(** ... and the scattered auxiliary fields of debug_mpi raise. *)
Theorem C64_fields_refuted : forall xi junk, debug_fields xi junk = Err ValueError.
Proof. exact debug_fields_raises. Qed.
Print Assumptions C64_fields_refuted.
Example C64_ex : assign_all (SArr [1; 2]%Q) (RArr [0; 0]%Q) = Ok [1; 2]%Q.
Proof. reflexivity. Qed.

(** C65.  Documented numpy and torch names, and TiledArray on the cpu. *)
Theorem C65_documented_partial : forall e st, has_floats e -> Forall (fun x =>
  let '(s, n, k, t) := x in
  set_backend e s st = if installed e n then ((k, t), None) else (st, Some RuntimeError)) documented.
Proof. exact documented_ok. Qed.
Print Assumptions C65_documented_partial.
Example C65_ex : has_floats (Env true true true (fun _ => true) (fun _ => true)).
Proof. split; repeat constructor. Qed.
Theorem C65_tiledarray_partial : forall e st, In "TiledArray" documented_ta /\ In "TiledArray.sparse" documented_ta /\
  set_backend e "TiledArray" st = (if ta_ok e then ((TAB, snd st), None) else (st, Some RuntimeError)) /\
  set_backend e "TiledArray.sparse" st = (if ta_ok e then ((TAB, snd st), None) else (st, Some RuntimeError)).
Proof. exact ta_plain. Qed.
Print Assumptions C65_tiledarray_partial.
(** Two documented names are rejected as unknown devices. *)
Theorem C65_tiledarray_refuted : forall e st, ta_ok e = true ->
  In "TiledArray.cuda" documented_ta /\ In "TiledArray.cuda.sparse" documented_ta /\
  set_backend e "TiledArray.cuda" st = (st, Some ValueError) /\ set_backend e "TiledArray.cuda.sparse" st = (st, Some ValueError).
Proof. exact ta_cuda. Qed.
Print Assumptions C65_tiledarray_refuted.
(** For every string: what an accepted name selects. *)
Theorem C65_accepted : forall e s st st', set_backend e s st = (st', None) ->
  (exists t, (s = "numpy" \/ s = "numpy." ++ t \/ s = "numpy.cpu." ++ t) /\ st' = (NumpyB, t) /\ np_has e t = true) \/
  (exists t, (s = "torch" \/ s = "torch." ++ t \/ s = "torch.cpu." ++ t) /\ torch_ok e = true /\ st' = (TorchB, t) /\ torch_has e t = true) \/
  (exists t, (s = "torch.cuda" \/ s = "torch.cuda." ++ t) /\ torch_ok e = true /\ cuda_ok e = true /\ st' = (TorchCudaB, t) /\ torch_has e t = true) \/
  (exists t, (s = "TiledArray" \/ s = "TiledArray." ++ t \/ s = "TiledArray.cpu." ++ t) /\ ta_ok e = true /\ st' = (TAB, snd st)).
Proof. exact set_backend_ok. Qed.
Print Assumptions C65_accepted.
(** Undocumented names are accepted: any attribute of numpy passes as a float
    type. *)
Theorem C65_exactly_refuted : exists e s st, ~ In s (map (fun x => fst (fst (fst x))) documented ++ documented_ta)%list /\
  snd (set_backend e s st) = None /\ fst (set_backend e s st) = (NumpyB, "sin").
Proof. exact set_backend_undocumented. Qed.
Print Assumptions C65_exactly_refuted.
Theorem C65_cupy : forall e st, set_backend e "cupy" st = (st, Some NameError).
Proof. exact cupy_raises. Qed.
Print Assumptions C65_cupy.

(** C144.  A failed selection leaves the backend alone, except when the float
    type is unknown: then the class has already been switched. *)
Theorem C144_atomic_partial : forall e s st st' x, set_backend e s st = (st', Some x) -> x <> AttributeError -> st' = st.
Proof. exact set_backend_atomic. Qed.
Print Assumptions C144_atomic_partial.
Theorem C144_atomic_refuted : exists e s st st' x, set_backend e s st = (st', Some x) /\ st' <> st.
Proof. exact set_backend_half. Qed.
Print Assumptions C144_atomic_refuted.

(** C70. *)
Theorem C70_deprecated_partial : forall A B (f : A -> res B) a, deprecated f a = rmap Some (f a).
Proof. exact deprecated_ok. Qed.
Print Assumptions C70_deprecated_partial.
Theorem C70_wall_time : forall A B (f : A -> res B) a b, f a = Ok b -> wall_time f a = Ok None.
Proof. exact wall_time_drops. Qed.
Print Assumptions C70_wall_time.
Theorem C70_wall_time_refuted : exists (f : Z -> res Z) a b, f a = Ok b /\ wall_time f a <> Ok (Some b).
Proof. exact wall_time_wrong. Qed.
Print Assumptions C70_wall_time_refuted.
Example C70_ex : deprecated (fun x : Z => Ok (x + 1)%Z) 1%Z = Ok (Some 2%Z).
Proof. reflexivity. Qed.
