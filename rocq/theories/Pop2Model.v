(** Model of the less used population controls of
    openms/qmc/population_control.py: residual branching
    ([branching_control]), branching with a dynamic list
    ([branching_dp_dynamics]) and the energy-offset adjustment. *)
From Verif Require Import Base PopModel.
From Coq Require Import Qround Reals.
Open Scope Q_scope.

Section Control.
Context {A : Type}.
(** [branching_control], lines 262-333.  [arr] is the global name used in line
    286; the module does not define it, so a call has [arr = None].  [target]
    is total_weight0 / nwalkers (line 281).  [choice n] are the n indices drawn
    by numpy.random.choice (line 322); that it rejects negative probabilities is
    not modelled. *)
(** lines 302-310: copies of the walkers above the bound, until the count
    exceeds the number of walkers *)
Fixpoint add_copies (nw : Z) (target : Q) (phiw : list A) (ws : list Q) (up : list nat) (count : Z)
         (acc : list (A * Q)) : res (list (A * Q) * Z) :=
  match up with
  | [] => Ok (acc, count)
  | i :: r =>
    rbind (index ws i) (fun w => rbind (index phiw i) (fun p =>
    let c := Qfloor (w / target) in
    let acc' := acc ++ repeat (p, target) (Z.to_nat c) in
    let count' := (count + c)%Z in
    if (nw <? count')%Z then Ok (acc', count') else add_copies nw target phiw ws r count' acc'))
  end.
Definition where_above (b : Q) (ws : list Q) : list nat :=
  filter (fun i => qltb b (nth i ws 0)) (seq 0 (length ws)).
Definition branching_control (arr : option (list Q)) (phiw : list A) (ws : list Q) (target bound : Q)
           (choice : nat -> list nat) : res (list (A * Q)) :=
  match arr with
  | None => Err NameError
  | Some _ =>
    let nw := Z.of_nat (length phiw) in
    rbind (add_copies nw target phiw ws (where_above bound ws) 0 []) (fun r =>
    let extra := (nw - snd r)%Z in
    if (0 <? extra)%Z then
      rmap (fun l => fst r ++ map (fun p => (p, target)) l) (rmapM (index phiw) (choice (Z.to_nat extra)))
    else if (extra <? 0)%Z then Ok (firstn (length phiw) (fst r))
    else Ok (fst r))
  end.

(** [branching_dp_dynamics], lines 30-108.  [acc] holds the new walkers,
    [e1] is e + 1; walkers themselves are not modified (lines 80-93 change only
    weights). *)
Fixpoint dyn_loop (fuel : nat) (mn mx : Q) (draws : nat -> Q) (wk : list A) (sidx : list nat) (s e1 : nat)
         (ws : list Q) (acc : list (A * Q)) : res (list (A * Q) * list Q) :=
  match fuel with
  | O => Err OutOfFuel
  | S f =>
    if (Nat.ltb s e1) && (Nat.ltb (length acc) (length wk)) then
      rbind (index sidx s) (fun si => rbind (index sidx (e1 - 1)) (fun ei =>
      rbind (index ws si) (fun wsi => rbind (index ws ei) (fun wei =>
      if qltb (qabs wsi) mn || qltb mx (qabs wei) then
        let wab := qabs wsi + qabs wei in
        if large_wins (draws s) (qabs wsi) (qabs wei) then
          rbind (index wk si) (fun x =>
          dyn_loop f mn mx draws wk sidx (S s) (e1 - 1) (upd ws ei ((1#2) * wab)) (acc ++ [(x, (1#2) * wab)]))
        else
          rbind (index wk ei) (fun x =>
          dyn_loop f mn mx draws wk sidx (S s) (e1 - 1) (upd ws si ((1#2) * wab)) (acc ++ [(x, (1#2) * wab)]))
      else
        rbind (index wk ei) (fun x =>
        dyn_loop f mn mx draws wk sidx s (e1 - 1) ws (acc ++ [(x, wei)]))))))
    else Ok (acc, ws)
  end.
(** lines 99-105: pad with randomly selected walkers; [pick] are the drawn
    indices *)
Fixpoint dyn_pad (k : nat) (pick : nat -> nat) (wk : list A) (ws : list Q) (acc : list (A * Q)) : res (list (A * Q)) :=
  match k with
  | O => Ok acc
  | S k' => rbind (index wk (pick k')) (fun x => rbind (index ws (pick k')) (fun w =>
            dyn_pad k' pick wk ws (acc ++ [(x, w)])))
  end.
Definition branching_dp_dynamics (wk : list A) (ws : list Q) (mn mx : Q) (sidx : list nat)
           (draws : nat -> Q) (pick : nat -> nat) : res (list (A * Q)) :=
  rbind (dyn_loop (S (length wk)) mn mx draws wk sidx 0 (length wk) ws []) (fun r =>
  dyn_pad (length wk - length (fst r)) pick wk (snd r) (fst r)).
End Control.

(** [energy_offset_adjustment_with_resampling], lines 435-445, and
    [adjust_energy_offset], lines 584-595, in exact reals. *)
Section Offset.
Open Scope R_scope.
Fixpoint rsum (l : list R) : R := match l with [] => 0 | x :: r => x + rsum r end.
Definition mean (l : list R) : R := rsum l / INR (length l).
Definition energy_offset (ws : list R) (target : R) : R := ln (mean ws / target).
Definition adjusted_weights (ws es : list R) (dt target : R) : list R :=
  map (fun p => fst p * exp (- dt * (snd p - energy_offset ws target))) (combine ws es).
End Offset.
