(** Model of the support code: openms/lib/logger.py, the serial stand-in of
    openms/__mpi__.py, set_backend of openms/lib/backend.py and the decorators
    of openms/lib/misc.py. *)
From Coq Require Import Bool Ascii String.
From Verif Require Import Base.
Open Scope string_scope.

(* ------------------------------------------------------------------ *)
(** * Logger, module-level functions (logger.py 38-107) *)
Inductive call := CLog | CError | CWarn | CInfo | CNote | CDebug | CDebug1 | CDebug2 | CDebug3 | CDebug4.
(** What a call writes: to the stream of the object or to stderr. *)
Inductive out := ToRec (s : string) | ToErr (s : string).
(** The names compared with rec.verbose, logger.py 38-48: the module defines
    VERBOSE_DEBUG/INFO/NOTICE/WARN/ERR/QUIET and DEBUG1-4, not VERBOSE_ERROR
    and not VERBOSE_DEBUG1-4. *)
Definition verbose_const (s : string) : res Z :=
  if s =? "VERBOSE_DEBUG" then Ok 5%Z else if s =? "VERBOSE_INFO" then Ok 4%Z
  else if s =? "VERBOSE_NOTICE" then Ok 3%Z else if s =? "VERBOSE_WARN" then Ok 2%Z
  else if s =? "VERBOSE_ERR" then Ok 1%Z else if s =? "VERBOSE_QUIET" then Ok 0%Z
  else Err NameError.
(** flush, logger.py 53-57; [fmt] is the python operation [msg % args] *)
Definition flush (rank : nat) (fmt : string -> res string) (msg : string) : res (list out) :=
  if Nat.eqb rank 0 then rmap (fun s => [ToRec (s ++ String "010" "")]) (fmt msg) else Ok [].
Definition nl : string := String "010" "".
(** the functions log, error, warn, info, note, debug, debug1-4, logger.py
    59-100; [own_stream] says that rec.stdout is not sys.stdout *)
Definition log_call (rank : nat) (verbose : Z) (own_stream : bool) (fmt : string -> res string)
    (c : call) (msg : string) : res (list out) :=
  let gate (name : string) (body : res (list out)) : res (list out) :=
    rbind (verbose_const name) (fun k => if (k <=? verbose)%Z then body else Ok []) in
  match c with
  | CLog => rbind (verbose_const "VERBOSE_QUIET") (fun k => if (k <? verbose)%Z then flush rank fmt msg else Ok [])
  | CError => rbind (gate "VERBOSE_ERROR" (flush rank fmt (nl ++ "ERROR: " ++ msg ++ nl))) (fun o =>
      rmap (fun s => (o ++ [ToErr ("ERROR: " ++ s ++ nl)])%list) (fmt msg))
  | CWarn => gate "VERBOSE_WARN" (rbind (flush rank fmt (nl ++ "WARN: " ++ msg ++ nl)) (fun o =>
      if own_stream then rmap (fun s => (o ++ [ToErr ("WARN: " ++ s ++ nl)])%list) (fmt msg) else Ok o))
  | CInfo => gate "VERBOSE_INFO" (flush rank fmt msg)
  | CNote => gate "VERBOSE_NOTICE" (flush rank fmt msg)
  | CDebug => gate "VERBOSE_DEBUG" (flush rank fmt msg)
  | CDebug1 => gate "VERBOSE_DEBUG1" (flush rank fmt msg)
  | CDebug2 => gate "VERBOSE_DEBUG2" (flush rank fmt msg)
  | CDebug3 => gate "VERBOSE_DEBUG3" (flush rank fmt msg)
  | CDebug4 => gate "VERBOSE_DEBUG4" (flush rank fmt msg)
  end.

(** task_title, logger.py 110-127, levels 1 and 2: the text between the two
    rulers of '-' (or '*'); [repeat] with a negative count is empty. *)
Definition title_widths (length : Z) (msg : string) : Z * Z :=
  let n := Z.of_nat (String.length msg) in
  let len1 := ((length - n) / 2)%Z in (len1, (length - n - len1)%Z).
Fixpoint rep (n : nat) (c : ascii) : string := match n with O => "" | S k => String c (rep k c) end.
Definition repz (n : Z) (c : ascii) : string := rep (Z.to_nat n) c.
Definition task_title (level : Z) (msg : string) : string :=
  if (level =? 2)%Z then let w := title_widths 60 msg in
    nl ++ repz (fst w) "*" ++ " " ++ msg ++ " " ++ repz (snd w) "*"
  else let w := title_widths 80 msg in
    nl ++ repz (fst w) "-" ++ " " ++ msg ++ " " ++ repz (snd w) "-".

(** * Logger class (logger.py 130-186) *)
Definition log_levels (s : string) : res Z :=
  if s =? "QUIET" then Ok 0%Z else if s =? "CRITICAL" then Ok 5%Z else if s =? "INFO" then Ok 10%Z
  else if s =? "ERROR" then Ok 15%Z else if s =? "WARNING" then Ok 20%Z else if s =? "DEBUG" then Ok 25%Z
  else if s =? "DEBUGALL" then Ok 30%Z else Err KeyError.
(** the method for [level]: does it write its entry? *)
Definition logger_shows (verbose level : string) : res bool :=
  rbind (log_levels verbose) (fun v => rmap (fun l => (l <=? v)%Z) (log_levels level)).

(* ------------------------------------------------------------------ *)
(** * FakeComm (__mpi__.py 7-85) *)
(** A python number, a numpy scalar, a one-dimensional array, a list. *)
Inductive pyval := VNum (q : Q) | VNp (q : Q) | VArr (l : list Q) | VList (l : list pyval).
(** allreduce, 68-69: sendbuf.copy(); python numbers have no such method *)
Definition allreduce (v : pyval) : res pyval :=
  match v with VNum _ => Err AttributeError | _ => Ok v end.
(** gather, 39-40; bcast and Bcast, 45-49 *)
Definition gather (v : pyval) : res pyval := Ok (VList [v]).
Definition bcast (v : pyval) : res pyval := Ok v.
(** scatter, 83-85 *)
Definition scatter (v : pyval) : res pyval :=
  match v with
  | VNum _ | VList _ => Err AttributeError
  | VNp _ => Err IndexError
  | VArr l => if Nat.eqb (List.length l) 1 then rmap VNp (index l 0) else Err AssertionError
  end.
(** receive buffer: an array, or the mpi4py specification
    [array, counts, displs, type], whose array is what the caller reads *)
Inductive rbuf := RArr (l : list Q) | RSpec (l : list Q) (counts displs : list nat).
(** send buffer of the upper-case calls *)
Inductive sbuf := SArr (l : list Q) | SNum (q : Q) | SSpec (l : list Q) (counts displs : list nat).
(** [recvbuf[:] = sendbuf], the body of Gather, Gatherv, Allgather, Allreduce,
    Reduce, Scatter and Scatterv, 33-37, 42-43, 65-66, 74-81: content of the
    caller's receive array afterwards.  Assigning to the slice of a list
    replaces the list's items and leaves the array alone; an array cannot take
    the items of a specification. *)
Definition assign_all (s : sbuf) (r : rbuf) : res (list Q) :=
  match r, s with
  | RArr old, SArr l => if Nat.eqb (List.length l) (List.length old) then Ok l
                        else if Nat.eqb (List.length l) 1 then rmap (fun x => repeat x (List.length old)) (index l 0)
                        else Err ValueError
  | RArr old, SNum q => Ok (repeat q (List.length old))
  | RArr _, SSpec _ _ _ => Err ValueError
  | RSpec old _ _, SNum _ => Err TypeError
  | RSpec old _ _, _ => Ok old
  end.
(** Isend and Recv, 54-63: a dictionary from tags to send buffers *)
Definition mailbox := list (nat * list Q).
Definition isend (m : mailbox) (tag : nat) (l : list Q) : mailbox := (tag, l) :: m.
Fixpoint lookup (m : mailbox) (tag : nat) : option (list Q) :=
  match m with [] => None | (t, l) :: r => if Nat.eqb t tag then Some l else lookup r tag end.
Definition recv (m : mailbox) (tag : nat) (buf : list Q) : res (list Q) :=
  match lookup m tag with None => Ok buf | Some l => assign_all (SArr l) (RArr buf) end.

(** exx_rltensor_Ghalf_chunked, estimators.py 556-590, on one rank, given the
    local values of the exchange energies *)
Definition exx_chunked (local_exx : list Q) : res (list Q) :=
  let nw := List.length local_exx in
  assign_all (SArr local_exx) (RSpec (repeat 0%Q nw) [nw] [O]).
(** the auxiliary fields of propagate_walkers_twobody with debug_mpi,
    propagators.py 619-633, on one rank *)
Definition debug_fields (xi_full : list Q) (junk : list Q) : res (list Q) :=
  let n := List.length xi_full in assign_all (SSpec xi_full [n] [O]) (RArr junk).

(* ------------------------------------------------------------------ *)
(** * set_backend (backend.py 435-529) *)
Inductive cls := NumpyB | TorchB | TorchCudaB | TAB.
(** flags and attributes of the installed modules *)
Record env := Env { torch_ok : bool; cuda_ok : bool; ta_ok : bool; np_has : string -> bool; torch_has : string -> bool }.
(** the global backend object: its class and float type *)
Definition bstate := (cls * string)%type.

Definition dot : ascii := "."%char.
Fixpoint count (c : ascii) (s : string) : nat :=
  match s with "" => O | String a r => ((if Ascii.eqb a c then 1 else 0) + count c r)%nat end.
(** str.split(c): pieces between the separators *)
Fixpoint split (c : ascii) (s : string) : list string :=
  match s with
  | "" => [""]
  | String a r => if Ascii.eqb a c then "" :: split c r else
      match split c r with [] => [String a ""] | p :: ps => String a p :: ps end
  end.
(** final class, float type and exception: the object is changed before the
    float type is looked up *)
Definition assign (has : string -> bool) (k : cls) (dtype : string) (st : bstate) : bstate * option exn :=
  if has dtype then ((k, dtype), None) else ((k, snd st), Some AttributeError).
Definition select (e : env) (name device dtype : string) (st : bstate) : bstate * option exn :=
  if name =? "numpy" then
    if device =? "cpu" then assign (np_has e) NumpyB dtype st else (st, Some ValueError)
  else if name =? "cupy" then (st, Some NameError)
  else if name =? "torch" then
    if device =? "cpu" then assign (torch_has e) TorchB dtype st
    else if device =? "cuda" then assign (torch_has e) TorchCudaB dtype st
    else (st, Some ValueError)
  else if name =? "TiledArray" then
    if device =? "cpu" then ((TAB, snd st), None) else (st, Some ValueError)
  else (st, Some ValueError).
Definition set_backend (e : env) (name : string) (st : bstate) : bstate * option exn :=
  if String.prefix "torch" name && negb (torch_ok e) then (st, Some RuntimeError)
  else if String.prefix "torch.cuda" name && negb (cuda_ok e) then (st, Some RuntimeError)
  else if String.prefix "TiledArray" name && negb (ta_ok e) then (st, Some RuntimeError)
  else match count dot name with
  | O => select e name "cpu" "float64" st
  | S O => match split dot name with
         | [n; d] => if d =? "cuda" then select e n "cuda" "float64" st else select e n "cpu" d st
         | _ => (st, Some ValueError)
         end
  | S (S O) => match split dot name with
         | [n; d; t] => select e n d t st
         | _ => (st, Some ValueError)
         end
  | _ => (st, Some ValueError)
  end.

(* ------------------------------------------------------------------ *)
(** * Decorators (misc.py 197-218); [None] is python's None *)
Definition deprecated {A B} (f : A -> res B) : A -> res (option B) := fun a => rmap Some (f a).
Definition wall_time {A B} (f : A -> res B) : A -> res (option B) := fun a => rmap (fun _ => None) (f a).
