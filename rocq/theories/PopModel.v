(** Model of openms/qmc/population_control.py.

    Conventions.  A population is a list of walkers (an arbitrary type [A])
    together with a list of weights of the same length.  Weights are exact
    rationals: float rounding is not modelled.  [np.random.rand] /
    [np.random.uniform] results are arguments. *)
From Verif Require Import Base.
From Coq Require Import Qround.
Open Scope Q_scope.

Section Pop.
Context {A : Type}.

(** ** Pair branching: [branching_dp0], lines 167-254.

    One row of the structured array [walker_info] (lines 183-194).  The field
    [final_idx] of the code is written but never read; it is omitted. *)
Record info := mkinfo { iw : Q; ist : nat; iorg : nat }.

(** lines 190-193: initial rows (weight |w|, status 1, own index). *)
Fixpoint init_info_from (k : nat) (ws : list Q) : list info :=
  match ws with
  | [] => []
  | w :: r => mkinfo (qabs w) 1 k :: init_info_from (S k) r
  end.
Definition init_info (ws : list Q) : list info := init_info_from 0 ws.

(** line 198: [walker_info[sort_indices]]. *)
Definition gather {B} (l : list B) (idx : list nat) : res (list B) :=
  rmapM (index l) idx.

(** lines 204-233: the branching condition and the clone/kill choice for one
    pair.  [clone_large] is the outcome of line 214,
    [p < weight[end] / w_se]. *)
Definition needs_branch (mn mx ws we : Q) : bool := qltb ws mn || qltb mx we.

Definition branch_pair (clone_large : bool) (a b : info) : info * info :=
  let w := iw a + iw b in
  if clone_large
  then (mkinfo 0 0 (iorg a), mkinfo ((1#2) * w) 2 (iorg b))
  else (mkinfo ((1#2) * w) 2 (iorg a), mkinfo 0 0 (iorg b)).

(** line 214: [p < weight[end] / w_se].  For [w_se = 0] numpy evaluates
    0/0 = nan and the comparison is False. *)
Definition large_wins (p ws we : Q) : bool :=
  if Qeq_bool (ws + we) 0 then false else qltb p (we / (ws + we)).

(** lines 201-239: the loop over [start], [end].  [coin k a b] is the outcome
    of the draw in iteration [k].  The loop performs at most [fuel]
    iterations; [pair_loop] is always called with enough fuel. *)
Fixpoint pair_loop (fuel : nat) (mn mx : Q) (coin : nat -> info -> info -> bool)
         (s e : nat) (arr : list info) : res (list info) :=
  match fuel with
  | O => Err OutOfFuel
  | S f =>
    if Nat.ltb s e then
      rbind (index arr s) (fun a =>
      rbind (index arr e) (fun b =>
      if needs_branch mn mx (iw a) (iw b) then
        let (a', b') := branch_pair (coin s a b) a b in
        pair_loop f mn mx coin (S s) (e - 1) (upd (upd arr e b') s a')
      else Ok arr))
    else Ok arr
  end.

(** lines 242-251: emit [status] copies of each original walker, in sorted
    order. *)
Definition emit_one (walkers : list A) (i : info) : res (list (A * Q)) :=
  rmap (fun w => repeat (w, iw i) (ist i)) (index walkers (iorg i)).

Definition emit (walkers : list A) (arr : list info) : res (list (A * Q)) :=
  rmap (@concat _) (rmapM (emit_one walkers) arr).

(** The whole function with an arbitrary coin and an arbitrary result
    [sidx] of [np.argsort] (line 197). *)
Definition branching_coin (walkers : list A) (weights : list Q) (mn mx : Q)
           (sidx : list nat) (coin : nat -> info -> info -> bool)
  : res (list (A * Q)) :=
  if negb (Nat.eqb (length walkers) (length weights)) then Err AssertionError
  else
    rbind (gather (init_info weights) sidx) (fun arr =>
    rbind (pair_loop (S (length arr)) mn mx coin 0 (length arr - 1) arr)
          (emit walkers)).

(** The function of the code: the coin of iteration [k] compares the draw
    [draws k] (line 213) with the threshold (line 214). *)
Definition draw_coin (draws : nat -> Q) (k : nat) (a b : info) : bool :=
  large_wins (draws k) (iw a) (iw b).

Definition branching_dp0 (walkers : list A) (weights : list Q) (mn mx : Q)
           (sidx : list nat) (draws : nat -> Q) : res (list (A * Q)) :=
  branching_coin walkers weights mn mx sidx (draw_coin draws).

(** ** [branching_dp_constant], lines 111-164.  Parallel lists, updated in
    place. *)
Fixpoint const_loop (fuel : nat) (mn mx : Q) (draws : nat -> Q)
         (sidx : list nat) (s e : nat) (wk : list A) (ws : list Q)
  : res (list A * list Q) :=
  match fuel with
  | O => Err OutOfFuel
  | S f =>
    if Nat.ltb s e then
      rbind (index sidx s) (fun si => rbind (index sidx e) (fun ei =>
      rbind (index ws si) (fun wsi => rbind (index ws ei) (fun wei =>
      if qltb (qabs wsi) mn || qltb mx (qabs wei) then
        let wab := qabs wsi + qabs wei in
        if large_wins (draws s) (qabs wsi) (qabs wei) then
          rbind (index wk si) (fun x =>
          const_loop f mn mx draws sidx (S s) (e - 1)
                     (upd wk ei x) (upd ws ei ((1#2) * wab)))
        else
          rbind (index wk ei) (fun x =>
          const_loop f mn mx draws sidx (S s) (e - 1)
                     (upd wk si x) (upd ws si ((1#2) * wab)))
      else Ok (wk, ws)))))
    else Ok (wk, ws)
  end.

Definition branching_dp_constant (wk : list A) (ws : list Q) (mn mx : Q)
           (sidx : list nat) (draws : nat -> Q) : res (list A * list Q) :=
  const_loop (S (length wk)) mn mx draws sidx 0 (length wk - 1) wk ws.

(** ** Reconfiguration: [stochastic_reconfiguration], lines 372-417
    (and [systematic_resampling], lines 556-580, the same loop). *)

(** lines 385-387: [np.cumsum(weights / total_weight)]. *)
Fixpoint cumsum_from (acc : Q) (l : list Q) : list Q :=
  match l with
  | [] => []
  | x :: r => (acc + x) :: cumsum_from (acc + x) r
  end.
Definition norm_cumsum (weights : list Q) : list Q :=
  cumsum_from 0 (map (fun w => w / qsum weights) weights).

(** line 396: [positions[i] = start + i/N]. *)
Definition position (n : nat) (start : Q) (i : nat) : Q :=
  start + inject_Z (Z.of_nat i) / inject_Z (Z.of_nat n).

(** lines 404-411: the two-pointer sweep.  Produces the selected indices. *)
Fixpoint sweep (fuel : nat) (n : nat) (start : Q) (cum : list Q) (i j : nat)
  : res (list nat) :=
  match fuel with
  | O => Err OutOfFuel
  | S f =>
    if Nat.ltb i n then
      rbind (index cum j) (fun c =>
      if qltb (position n start i) c
      then rmap (cons j) (sweep f n start cum (S i) j)
      else sweep f n start cum i (S j))
    else Ok []
  end.

(** lines 384-417.  [1.0/N] raises for [N = 0]; for an all-zero weight vector
    the normalised weights are nan, no comparison succeeds and [j] overruns.
    (A zero total from weights of mixed sign gives infinities in numpy and is
    not modelled: it is mapped to the same IndexError.) *)
Definition stochastic_reconfiguration (phiw : list A) (weights : list Q)
           (start : Q) : res (list A * list Q) :=
  let n := length weights in
  if Nat.eqb n 0 then Err ZeroDivisionError
  else if Qeq_bool (qsum weights) 0 then Err IndexError
  else
    rbind (sweep (S (n + n)) n start (norm_cumsum weights) 0 0) (fun js =>
    rbind (rmapM (index phiw) js) (fun ph =>
    Ok (ph, repeat (qsum weights / inject_Z (Z.of_nat n)) n))).

(** ** Comb: [comb_resampling], lines 336-369.  [np.searchsorted] (side
    'left') returns the first index whose cumulative sum is >= the marker
    (the length if there is none). *)
Fixpoint searchsorted_left (cum : list Q) (m : Q) : nat :=
  match cum with
  | [] => 0%nat
  | c :: r => if qltb c m then S (searchsorted_left r m) else 0%nat
  end.

Definition comb_resampling (phiw : list A) (weights : list Q) (offset : Q)
  : res (list A * list Q) :=
  let n := length weights in
  if Nat.eqb n 0 then Err ZeroDivisionError
  else if Qeq_bool (qsum weights) 0 then Err IndexError
  else
    rbind (rmapM (fun i => index phiw
                   (searchsorted_left (norm_cumsum weights) (position n offset i)))
                 (seq 0 n)) (fun ph =>
    Ok (ph, repeat (qsum weights / inject_Z (Z.of_nat n)) n)).

(** ** [branching_population_control], lines 518-551 (dynamic population).
    [coin k q] is the outcome of line 543, [random.random() < q], for the
    [k]-th walker. *)
Definition branch_walker (ub lb : Q) (coin : Q -> bool) (p : A) (w : Q) : list (A * Q) :=
  if qltb ub w then
    let k := Z.to_nat (Qfloor (w / ub)) in
    repeat (p, w / inject_Z (Z.of_nat k)) k
  else if qltb w lb then
    if coin (w / lb) then [(p, lb)] else []
  else [(p, w)].

Fixpoint branching_pc_from (ub lb : Q) (coin : nat -> Q -> bool) (k : nat)
         (l : list (A * Q)) : list (A * Q) :=
  match l with
  | [] => []
  | (p, w) :: r =>
    branch_walker ub lb (coin k) p w ++ branching_pc_from ub lb coin (S k) r
  end.

Definition branching_population_control (ub lb : Q) (draws : nat -> Q)
           (l : list (A * Q)) : list (A * Q) :=
  branching_pc_from ub lb (fun k q => qltb (draws k) q) 0 l.
End Pop.

(** ** Inter-node send plan: [inter_node_rebalance], lines 457-485.
    Counts are non-negative integers; [size] = number of ranks. *)
Section Rebalance.
Open Scope Z_scope.

Fixpoint enum_from {B} (k : nat) (l : list B) : list (nat * B) :=
  match l with [] => [] | x :: r => (k, x) :: enum_from (S k) r end.

(** lines 466-468 *)
Definition ideal (counts : list Z) : Z := zsum counts / Z.of_nat (length counts).
Definition deltas (counts : list Z) : list Z :=
  map (fun c => c - ideal counts) counts.

(** lines 472-473 *)
Definition senders (ds : list Z) : list (nat * Z) :=
  filter (fun p => Z.ltb 0 (snd p)) (enum_from 0 ds).
Definition receivers (ds : list Z) : list (nat * Z) :=
  map (fun p => (fst p, - snd p)) (filter (fun p => Z.ltb (snd p) 0) (enum_from 0 ds)).

(** lines 478-485: serve one receiver.  [si] is represented by the remaining
    suffix of the sender list.  Structural on that suffix plus the fact that
    a sender is either exhausted or the receiver is satisfied. *)
Fixpoint serve (ri : nat) (need : Z) (snd_ : list (nat * Z))
  : list (nat * nat * Z) * list (nat * Z) :=
  match snd_ with
  | [] => ([], [])
  | (sr, sur) :: rest =>
    if Z.ltb 0 need then
      let c := Z.min need sur in
      if Z.eqb (sur - c) 0 then
        let (pl, rem) := serve ri (need - c) rest in ((sr, ri, c) :: pl, rem)
      else ([(sr, ri, c)], (sr, sur - c) :: rest)
    else ([], snd_)
  end.

(** line 477: loop over the receivers. *)
Fixpoint make_plan (recs : list (nat * Z)) (snd_ : list (nat * Z))
  : list (nat * nat * Z) :=
  match recs with
  | [] => []
  | (ri, need) :: r =>
    let (pl, rem) := serve ri need snd_ in pl ++ make_plan r rem
  end.

(** lines 469-485: the plan is only made when the imbalance exceeds 5% of
    the ideal count: [max |d| > 0.05 * ideal], i.e. [20 max|d| > ideal]. *)
Definition max_abs (ds : list Z) : Z := fold_right (fun d m => Z.max (Z.abs d) m) 0 ds.
Definition send_plan (counts : list Z) : list (nat * nat * Z) :=
  let ds := deltas counts in
  if Z.ltb (ideal counts) (20 * max_abs ds)
  then make_plan (receivers ds) (senders ds) else [].
End Rebalance.
