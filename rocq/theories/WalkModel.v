(** Model of openms/qmc/generic_walkers.py (walker bookkeeping),
    population_control.py:492-511 (factory) and the walker options of
    openms/qmc/qmc.py.  Weights are exact rationals, wave-function blocks are
    an arbitrary type [P]. *)
From Coq Require Import String.
From Verif Require Import Base PopModel.
Open Scope Q_scope.

(** ** Rank partition, generic_walkers.py:88-91 *)
Definition walker_counter (nwalkers size : nat) : list nat :=
  map (fun i => (nwalkers / size + (if Nat.ltb i (nwalkers mod size) then 1 else 0))%nat)
      (seq 0 size).
Definition nsum (l : list nat) : nat := fold_right Nat.add 0%nat l.
Definition displs (nwalkers size : nat) : list nat :=
  map (fun i => nsum (firstn i (walker_counter nwalkers size))) (seq 0 size).

(** ** Weight state of one rank, generic_walkers.py:97-105 *)
Record wstate := mkws {
  weights : list Q;
  weights_org : list Q;
  total_weight : Q;    (* last recorded global total *)
  total_weight0 : Q }. (* the global number of walkers *)

Definition ws_init (nlocal nglobal : nat) : wstate :=
  mkws (repeat 1 nlocal) (repeat 1 nlocal)
       (inject_Z (Z.of_nat nglobal)) (inject_Z (Z.of_nat nglobal)).

(** [np.clip(w, -b, b)] = minimum(maximum(w, -b), b). *)
Definition clip (b w : Q) : Q :=
  let m := if Qlt_le_dec w (- b) then - b else w in
  if Qlt_le_dec b m then b else m.

(** generic_walkers.py:160-164 *)
Definition wc_clip (step : nat) (s : wstate) : wstate :=
  if Nat.ltb 0 step then
    mkws (map (clip ((1#10) * total_weight s)) (weights s)) (weights_org s)
         (total_weight s) (total_weight0 s)
  else s.

(** generic_walkers.py:170-171: local sum of absolute weights. *)
Definition local_total (s : wstate) : Q := qsum (map qabs (weights s)).

(** generic_walkers.py:175-184, given the reduced total. *)
Definition wc_rescale (total : Q) (s : wstate) : wstate :=
  let ratio := total / total_weight0 s in
  mkws (map (fun w => w / ratio) (weights s)) (weights s) total (total_weight0 s).

(** The whole [weight_control] on all ranks (lines 154-189) with no population
    control method ([method=None], the default of QMCbase).  [allreduce] is
    the sum over the ranks. *)
Definition weight_control (step freq : nat) (ranks : list wstate) : res (list wstate) :=
  let clipped := map (wc_clip step) ranks in
  match freq with
  | O => Err ZeroDivisionError
  | _ =>
    if Nat.eqb (Nat.modulo (S step) freq) 0 then
      let total := qsum (map local_total clipped) in
      Ok (map (wc_rescale total) clipped)
    else Ok clipped
  end.

(** A history: before every weight control the propagation has replaced the
    weights of every rank by arbitrary values. *)
Definition set_weights (ws : list Q) (s : wstate) : wstate :=
  mkws ws (weights_org s) (total_weight s) (total_weight0 s).
Fixpoint set_all (wss : list (list Q)) (ranks : list wstate) : list wstate :=
  match wss, ranks with
  | ws :: wss', s :: r => set_weights ws s :: set_all wss' r
  | _, r => r
  end.
Fixpoint wc_run (freq step : nat) (hist : list (list (list Q))) (ranks : list wstate)
  : res (list wstate) :=
  match hist with
  | [] => Ok ranks
  | h :: hs => rbind (weight_control step freq (set_all h ranks))
                     (fun r => wc_run freq (S step) hs r)
  end.

(** ** Packing, generic_walkers.py:192-219.  A packed walker is the list of its
    blocks; in the single-block case the code packs the bare array, modelled
    as a one-element list. *)
Section Pack.
Context {P : Type}.
Record walkers := mkw {
  ncomponents : nat;
  nwalkers : nat;
  phiwa : list P;
  phiwb : list P;            (* only read when ncomponents > 1 *)
  boson : option (list P);
  wts : list Q;
  ovlp : list Q;             (* per-walker side data: overlap ... *)
  ehybrid : list Q;          (* ... hybrid energy ... *)
  log_detR : list Q }.       (* ... accumulated log determinant *)

Definition pack_one (s : walkers) (i : nat) : res (list P) :=
  match boson s with
  | Some b =>
    if Nat.ltb 1 (ncomponents s) then
      rbind (index (phiwa s) i) (fun x => rbind (index (phiwb s) i) (fun y =>
      rbind (index b i) (fun z => Ok [x; y; z])))
    else if Nat.eqb (ncomponents s) 1 then
      rbind (index (phiwa s) i) (fun x => rbind (index b i) (fun z => Ok [x; z]))
    else rbind (index (phiwa s) i) (fun x => Ok [x])
  | None =>
    if Nat.ltb 1 (ncomponents s) then
      rbind (index (phiwa s) i) (fun x => rbind (index (phiwb s) i) (fun y => Ok [x; y]))
    else rbind (index (phiwa s) i) (fun x => Ok [x])
  end.
Definition pack (s : walkers) : res (list (list P)) :=
  rmapM (pack_one s) (seq 0 (nwalkers s)).

(** [[new_walkers[i][k] for i in range(nwalkers)]] *)
Definition column (new : list (list P)) (n k : nat) : res (list P) :=
  rmapM (fun i => rbind (index new i) (fun w => index w k)) (seq 0 n).

Definition set_blocks (s : walkers) (a b : list P) (bo : option (list P)) : walkers :=
  mkw (ncomponents s) (nwalkers s) a b bo (wts s) (ovlp s) (ehybrid s) (log_detR s).

Definition unpack (s : walkers) (new : list (list P)) : res walkers :=
  let n := nwalkers s in
  match boson s with
  | Some _ =>
    if Nat.ltb 1 (ncomponents s) then
      rbind (column new n 0) (fun a => rbind (column new n 1) (fun b =>
      rbind (column new n 2) (fun c => Ok (set_blocks s a b (Some c)))))
    else if Nat.eqb (ncomponents s) 1 then
      rbind (column new n 0) (fun a => rbind (column new n 1) (fun c =>
      Ok (set_blocks s a (phiwb s) (Some c))))
    else rbind (column new n 0) (fun a => Ok (set_blocks s a (phiwb s) (boson s)))
  | None =>
    if Nat.ltb 1 (ncomponents s) then
      rbind (column new n 0) (fun a => rbind (column new n 1) (fun b =>
      Ok (set_blocks s a b None)))
    else rbind (column new n 0) (fun a => Ok (set_blocks s a (phiwb s) None))
  end.

(** population_control.py:449-454 and 492-511.  [m] is the entry of
    [control_func_dict] together with its random input; [None] stands for a
    method name that is not in the dictionary.  The MPI branch only computes
    the plan of [inter_node_rebalance] and changes nothing. *)
Inductive control :=
| Branching (sidx : list nat) (draws : nat -> Q)
| Reconfiguration (start : Q)
| Comb (offset : Q).

Definition run_control (c : control) (pk : list (list P)) (ws : list Q)
  : res (list (list P) * list Q) :=
  match c with
  | Branching sidx draws =>
    rmap (fun out => (map fst out, map snd out))
         (branching_dp0 pk ws (1#10) 2 sidx draws)
  | Reconfiguration start => stochastic_reconfiguration pk ws start
  | Comb offset => comb_resampling pk ws offset
  end.

Definition set_wts (s : walkers) (w : list Q) : walkers :=
  mkw (ncomponents s) (nwalkers s) (phiwa s) (phiwb s) (boson s) w
      (ovlp s) (ehybrid s) (log_detR s).

Definition population_control (m : option control) (s : walkers) : res walkers :=
  match m with
  | None => Ok s
  | Some c =>
    rbind (pack s) (fun pk =>
    rbind (run_control c pk (wts s)) (fun r =>
    rmap (fun s' => set_wts s' (snd r)) (unpack s (fst r))))
  end.
End Pack.

(** ** Walker options, qmc.py:358-364 and generic_walkers.py:39-43.  Python
    dictionaries with string keys; [dict.update] adds or replaces keys. *)
Definition dict := list (string * Q).
Fixpoint dget (k : string) (d : dict) : option Q :=
  match d with
  | [] => None
  | (k', v) :: r => if String.eqb k k' then Some v else dget k r
  end.
Fixpoint dset (k : string) (v : Q) (d : dict) : dict :=
  match d with
  | [] => [(k, v)]
  | (k', v') :: r => if String.eqb k k' then (k, v) :: r else (k', v') :: dset k v r
  end.
Definition dupdate (u d : dict) : dict := fold_left (fun d kv => dset (fst kv) (snd kv) d) u d.

Definition default_walker_options : dict :=
  [("nwalkers"%string, 100); ("weight_min"%string, 1#10); ("weight_max"%string, 10)].

(** Arguments of one construction: the keyword [walker_options] and the
    parameter [num_walkers] (whose default is 100, qmc.py:218). *)
Record ctor_args := mkargs { arg_options : option dict; arg_num_walkers : option Q }.
Definition default_args (o : option dict) : ctor_args := mkargs o (Some 100).

(** The process state: the module-global dictionary, and the number of
    simulations constructed so far.  Every simulation's [walker_options] IS
    the global dictionary object (line 358 binds, it does not copy). *)
Definition construct (g : dict) (a : ctor_args) : dict :=
  let g1 := match arg_options a with Some u => dupdate u g | None => g end in
  match arg_num_walkers a with Some n => dset "nwalkers" n g1 | None => g1 end.
Definition process (l : list ctor_args) : dict := fold_left construct l default_walker_options.
(** Options seen by the [k]-th simulation after the constructions [l]. *)
Definition options_of (l : list ctor_args) (k : nat) : option dict :=
  if Nat.ltb k (List.length l) then Some (process l) else None.

(** ** Bosonic renormalisation, qmc.py:734-738, for a real amplitude vector;
    [norm] is the square root of the sum of squares. *)
Definition boson_renorm (norm : Q) (phi : list Q) : list Q := map (fun x => qabs (x / norm)) phi.
