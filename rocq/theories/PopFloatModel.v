(** IEEE binary64 version of the reconfiguration sweep, built on the
    specification floats of Coq's standard library (axiom free).  Models the
    same lines as [PopModel.sweep], with numpy's float64 arithmetic. *)
From Verif Require Import Base.
From Coq Require Import SpecFloat.
Open Scope Z_scope.

Definition prec := 53.
Definition emax := 1024.
Definition fadd := SFadd prec emax.
Definition fsub := SFsub prec emax.
Definition fmul := SFmul prec emax.
Definition fdiv := SFdiv prec emax.
(** Conversion of a dyadic rational [m * 2^e] (exact when representable). *)
Definition fdyad (m e : Z) : spec_float := binary_normalize prec emax m e false.
Definition fint (m : Z) : spec_float := fdyad m 0.

(** population_control.py:385 [np.sum]: for fewer than 8 elements numpy adds
    left to right; for integers below 2^53 every order gives the same exact
    result, the only use made of it here. *)
Definition fsum (l : list spec_float) : spec_float := fold_left fadd l (fint 0).

(** population_control.py:386 [weights / total_weight] and 387 [np.cumsum]
    (sequential accumulation). *)
Fixpoint fcumsum_from (acc : spec_float) (l : list spec_float) : list spec_float :=
  match l with
  | [] => []
  | x :: r => let a := fadd acc x in a :: fcumsum_from a r
  end.
Definition fcumsum (l : list spec_float) : list spec_float :=
  match l with [] => [] | x :: r => x :: fcumsum_from x r end.

(** population_control.py:394 [np.random.uniform(0, 1.0/N)]: numpy computes
    low + (high - low) * u with u a multiple of 2^-53 in [0,1). *)
Definition funiform (k : Z) (high : spec_float) : spec_float :=
  fadd (fint 0) (fmul (fsub high (fint 0)) (fdyad k (-53))).

(** population_control.py:396 *)
Definition fposition (n : nat) (start : spec_float) (i : nat) : spec_float :=
  fadd start (fdiv (fint (Z.of_nat i)) (fint (Z.of_nat n))).

(** population_control.py:404-411 *)
Fixpoint fsweep (fuel n : nat) (start : spec_float) (cum : list spec_float) (i j : nat)
  : res (list nat) :=
  match fuel with
  | O => Err OutOfFuel
  | S f =>
    if Nat.ltb i n then
      rbind (index cum j) (fun c =>
      if SFltb (fposition n start i) c
      then rmap (cons j) (fsweep f n start cum (S i) j)
      else fsweep f n start cum i (S j))
    else Ok []
  end.

(** The selected indices, for random bits [k]. *)
Definition freconfiguration (weights : list spec_float) (k : Z) : res (list nat) :=
  let n := length weights in
  let total := fsum weights in
  let cum := fcumsum (map (fun w => fdiv w total) weights) in
  fsweep (S (n + n)) n (funiform k (fdiv (fint 1) (fint (Z.of_nat n)))) cum 0 0.
