(** Model of the time-stepping loop of openms/qmc/qmc.py: kernel (898-1052) and
    property_stack (828-895).  The propagation and measurements are events;
    numerical quantities are exact rationals. *)
From Verif Require Import Base.
Open Scope Q_scope.

Inductive event :=
| Ortho                      (* self.orthogonalization() *)
| Stack (step : Z)           (* self.property_stack(walkers, step) *)
| Propagate (step : nat)     (* propagator.propagate_walkers(...) *)
| Control (step : nat)       (* walkers.weight_control(...) *)
| Record_ (step : nat).      (* time_list / energy_list append *)

(** Body of the loop, qmc.py:954-1037 (timing and logging omitted). *)
Definition step_events (renorm_freq calc_freq step : nat) : list event :=
  (if Nat.eqb (Nat.modulo (S step) renorm_freq) 0 then [Ortho] else [])
  ++ [Propagate step; Control step; Stack (Z.of_nat step)]
  ++ (if Nat.eqb (Nat.modulo (S step) calc_freq) 0 then [Record_ step] else []).

(** qmc.py:931-1037.  [x % 0] raises ZeroDivisionError in python. *)
Definition run_events (renorm_freq calc_freq nsteps : nat) : res (list event) :=
  if (Nat.eqb renorm_freq 0 || Nat.eqb calc_freq 0)%bool
  then (if Nat.eqb nsteps 0 then Ok [Ortho; Stack (-1)] else Err ZeroDivisionError)
  else Ok ([Ortho; Stack (-1)] ++ flat_map (step_events renorm_freq calc_freq) (seq 0 nsteps)).

(** qmc.py:957 [tt = self.dt * step], 1010-1011. *)
Definition time_of (dt : Q) (e : event) : list Q :=
  match e with Record_ s => [dt * inject_Z (Z.of_nat s)] | _ => [] end.
Definition time_list (dt : Q) (evs : list event) : list Q := flat_map (time_of dt) evs.

(** ** property_stack, qmc.py:828-895.  One row per rank: the four accumulated
    properties (sum of weights, of unscaled weights, of hybrid and of local
    energies times weight), lines 851-862. *)
Record row := mkrow { r_w : Q; r_u : Q; r_h : Q; r_l : Q }.
Definition row0 := mkrow 0 0 0 0.
Definition radd (a b : row) : row :=
  mkrow (r_w a + r_w b) (r_u a + r_u b) (r_h a + r_h b) (r_l a + r_l b).
Definition rowsum (l : list row) : row := fold_right radd row0 l.

Record pstate := mkps { buffers : list row; eshift : Q }.
Definition ps_init (size : nat) (e0 : Q) : pstate := mkps (repeat row0 size) e0.

(** [data] holds this step's row of every rank. *)
Fixpoint zip_add (a b : list row) : list row :=
  match a, b with x :: a', y :: b' => radd x y :: zip_add a' b' | _, _ => [] end.

(** lines 868-895 (on reduction every rank obtains the same normalised
    buffer, of which the hybrid entry becomes the energy shift; then the
    buffer is cleared).  [freq = 0] raises ZeroDivisionError in the code and
    is covered by [run_events]; here it never reduces. *)
Definition stack (freq step : nat) (data : list row) (s : pstate) : pstate :=
  let b := zip_add (buffers s) data in
  if Nat.eqb (Nat.modulo (S step) freq) 0 then
    let g := rowsum b in
    mkps (repeat row0 (length b)) (r_h g / r_w g)
  else mkps b (eshift s).

Fixpoint stack_run (freq step : nat) (hist : list (list row)) (s : pstate) : pstate :=
  match hist with
  | [] => s
  | d :: h => stack_run freq (S step) h (stack freq step d s)
  end.

(** ** Seeding, qmc.py:915-922.  [global] is the state of numpy's global random
    generator, which all later draws use (propagators.py:632); [seeded s] is
    its state after [random.seed s]; the generator built by [default_rng] is not
    stored. *)
Definition seed_rank {G : Type} (seeded : Z -> G) (size : nat) (debug_mpi : bool)
  (random_seed : Z) (global : G) : G :=
  if (Nat.ltb 1 size && negb debug_mpi)%bool then global else seeded random_seed.
