(** Theorems about the field update of openms/lib/fdtd/timeupdate.c.
    C193, C194, C195, C196, C197, C198. *)
From mathcomp Require Import all_ssreflect all_algebra.
From Verif Require Import YeeModel YeeSpec YeeProofs.
Set Implicit Arguments.
Unset Strict Implicit.
Unset Printing Implicit Defensive.
Import GRing.Theory Num.Theory Order.TTheory.
Local Open Scope ring_scope.

(* a grid of equal cells for the examples *)
Definition p_test (R : realFieldType) (d m : R) (pos : bool) (sg : R) : par R :=
  Par d 1 1 1 1 1 (fun _ => 1) 1 1 1
    (fun _ => sg) (fun _ => sg) (fun _ => sg) (fun _ => sg) (fun _ => sg) (fun _ => sg)
    (fun _ _ _ => V3 1 1 1) (fun _ _ _ => m) (fun _ _ _ => 1) (fun _ _ _ => 1)
    (fun _ _ _ => pos) (fun i _ _ => V3 i%:R 0 0) (fun i _ _ => V3 i%:R 0 0).

(** C193.  One call of propagate solves Ampere's and Faraday's laws on the
    staggered grid in every cell the loops visit, although the loops work in
    place. *)
Theorem C193_ampere : forall (R : realFieldType) (p : par R) pi pj pk s i j k,
  interior pi pj pk i j k -> vacuum_cell p i j k -> constants_ok p -> eps_ok p i j k ->
  ampere (eo p) (dt p) (ds_x p) (ds_y p) (ds_nz p) (epsilon p) (fE s)
    (fE (propagate p pi pj pk s)) (fH s) (no_current R) i j k.
Proof. exact ampere_vac. Qed.
Print Assumptions C193_ampere.
Theorem C193_molecular : forall (R : realFieldType) (p : par R) pi pj pk s i j k,
  interior pi pj pk i j k -> molecular_cell p i j k -> constants_ok p -> eps_ok p i j k ->
  ampere (eo p) (dt p) (ds_x p) (ds_y p) (ds_nz p) (epsilon p) (fE s)
    (fE (propagate p pi pj pk s)) (fH s) (mean (dP p) (dP_old p)) i j k.
Proof. exact ampere_mol. Qed.
Print Assumptions C193_molecular.
Theorem C193_faraday : forall (R : realFieldType) (p : par R) pi pj pk s i j k,
  interior pi pj pk i j k -> plain_cell p i j k -> constants_ok p ->
  faraday (uo p * ups p) (dt p) (ds_x p) (ds_y p) (ds_nz p)
    (fE (propagate p pi pj pk s)) (fH s) (fH (propagate p pi pj pk s)) i j k.
Proof. exact plain_H. Qed.
Print Assumptions C193_faraday.
(** Perfect conductors hold no field. *)
Theorem C193_conductor : forall (R : realFieldType) (p : par R) pi pj pk s i j k,
  interior pi pj pk i j k -> conductor_cell p i j k ->
  fE (propagate p pi pj pk s) i j k = V3 0 0 0 /\ fH (propagate p pi pj pk s) i j k = V3 0 0 0.
Proof. exact conductor. Qed.
Print Assumptions C193_conductor.
(** Nothing else is written. *)
Theorem C193_outside : forall (R : realFieldType) (p : par R) pi pj pk s i j k,
  ~ interior pi pj pk i j k ->
  [/\ fE (propagate p pi pj pk s) i j k = fE s i j k,
      fH (propagate p pi pj pk s) i j k = fH s i j k,
      fD (propagate p pi pj pk s) i j k = fD s i j k,
      fB (propagate p pi pj pk s) i j k = fB s i j k &
      fJ (propagate p pi pj pk s) i j k = fJ s i j k].
Proof. exact outside. Qed.
Print Assumptions C193_outside.
(** The order in which the cells are visited does not matter. *)
Theorem C193_order : forall (R : realFieldType) (p : par R) pi pj pk cs1 cs2 s,
  perm_eq cs1 (cells pi pj pk) -> perm_eq cs2 (cells pi pj pk) ->
  same_fields (sweep (H_cell p) cs2 (sweep (E_cell p) cs1 s)) (propagate p pi pj pk s).
Proof. exact order. Qed.
Print Assumptions C193_order.
Theorem C193_cells : forall pi pj pk i j k,
  reflect (interior pi pj pk i j k) ((i, j, k) \in cells pi pj pk).
Proof. by move=> pi pj pk i j k; exact: (mem_cells pi pj pk (i, j, k)). Qed.
Print Assumptions C193_cells.
Example C193_ex (R : realFieldType) :
  [/\ interior 3 3 3 2 2 2, vacuum_cell (p_test (1 : R) 0 true 0) 2 2 2,
      molecular_cell (p_test (1 : R) 100%:R true 0) 2 2 2,
      conductor_cell (p_test (1 : R) 1000%:R true 0) 2 2 2 &
      constants_ok (p_test (1 : R) 0 true 0) /\ eps_ok (p_test (1 : R) 0 true 0) 2 2 2].
Proof. by do !split=> //; apply/eqP; exact: oner_neq0. Qed.
(* a numerical step: the fields of one cell after one call *)
Example C193_step (R : realFieldType) :
  cx (fE (propagate (p_fast R) 2 2 2 (s_fast R))) 1%N 1%N 1%N = - 5%:R.
Proof.
have [a _ _] : ampere (1 : R) 2%:R 1 1 (fun _ => 1) (epsilon (p_fast R)) (fE (s_fast R))
    (fE (propagate (p_fast R) 2 2 2 (s_fast R))) (fH (s_fast R)) (no_current R) 1 1 1.
  apply: (@C193_ampere R (p_fast R)) => //.
    by do !split; apply/eqP; rewrite ?oner_neq0 ?pnatr_eq0.
  by do !split; apply/eqP; exact: oner_neq0.
move: a; rewrite /by_ /bz /dual /cx /cy /cz /put /= -[1 + 1](mulr2n 1) divff ?pnatr_eq0 //.
rewrite !(mul1r, divr1, mulr1, subr0) => /(congr1 (fun x => x * 2%:R)).
rewrite divfK ?pnatr_eq0 // => /(congr1 (fun x => x + 1)); rewrite subrK => ->.
rewrite -opprD -[1]/(1%:R) mulNr -natrD -natrM -[RHS]opprK.
by rewrite opprK (_ : (_ * 2)%N = (5 + 1)%N) // natrD opprD addrNK.
Qed.

(** C194.  No magnetic charge appears, and electric charge changes only by the
    divergence of the molecular current. *)
Theorem C194_magnetic : forall (R : realFieldType) (p : par R) pi pj pk s n i j k,
  (forall c, c \in [:: (i, j, k); (i.+1, j, k); (i, j.+1, k); (i, j, k.+1)] ->
     interior pi pj pk c.1.1 c.1.2 c.2 /\ plain_cell p c.1.1 c.1.2 c.2) ->
  constants_ok p ->
  divH (ds_x p) (ds_y p) (ds_nz p) (fH (iter n (propagate p pi pj pk) s)) i j k =
  divH (ds_x p) (ds_y p) (ds_nz p) (fH s) i j k.
Proof. exact divH_iter. Qed.
Print Assumptions C194_magnetic.
Theorem C194_electric : forall (R : realFieldType) (p : par R) pi pj pk s i j k,
  (forall c, c \in [:: (i, j, k); (i.-1, j, k); (i, j.-1, k); (i, j, k.-1)] ->
     interior pi pj pk c.1.1 c.1.2 c.2 /\
     (vacuum_cell p c.1.1 c.1.2 c.2 \/ molecular_cell p c.1.1 c.1.2 c.2) /\
     eps_ok p c.1.1 c.1.2 c.2) ->
  constants_ok p ->
  divD (ds_x p) (ds_y p) (ds_nz p) (epsilon p) (fE (propagate p pi pj pk s)) i j k =
  divD (ds_x p) (ds_y p) (ds_nz p) (epsilon p) (fE s) i j k -
  dt p / eo p * divD (ds_x p) (ds_y p) (ds_nz p) (fun _ _ _ => V3 1 1 1)
    (molecular_current p) i j k.
Proof. exact divD_one. Qed.
Print Assumptions C194_electric.
(* a growing polarisation in x puts the charge -1 into the cell in each step *)
Example C194_ex (R : realFieldType) (s : state R) :
  let p := p_test (1 : R) 100%:R true 0 in
  divD 1 1 (fun _ => 1) (epsilon p) (fE (propagate p 4 4 4 s)) 2 2 2 =
  divD 1 1 (fun _ => 1) (epsilon p) (fE s) 2 2 2 - 1.
Proof.
move=> p.
have h : forall i j k, molecular_cell p i j k by [].
have c : constants_ok p by do !split; apply/eqP; exact: oner_neq0.
rewrite (@C194_electric R p 4 4 4 s 2 2 2) //; last first.
  move=> c0; rewrite !inE => h0.
  have e : eps_ok p c0.1.1 c0.1.2 c0.2 by do !split; apply/eqP; exact: oner_neq0.
  split; last by split=> //; right; exact: h.
  by case/or4P: h0 => /eqP ->.
congr (_ - _); rewrite /divD /bx /by_ /bz /cx /cy /cz /molecular_current /mean /=.
rewrite pnatr_eq0 /= /cx /cy /cz /= !(addr0, mul0r, mulr0, subrr, divr1, mul1r).
by rewrite -[2%:R + 2%:R]mulr2n -[1 + 1]mulr2n -mulr_natr mulfK ?pnatr_eq0 // divff ?pnatr_eq0 // mulr2n addrK.
Qed.

(** C195.  The electromagnetic energy of a closed box changes only by the Joule
    heat of the Drude currents: constant without metal, never increasing with
    non-negative damping. *)
Theorem C195_balance : forall (R : realFieldType) (p : par R) pi pj pk s n,
  walls pi pj pk s -> (forall i j k, interior pi pj pk i j k -> good_cell p s i j k) ->
  constants_ok p -> spacings_ok p pk ->
  energy_at p pi pj pk (fun m => iter m (propagate p pi pj pk) s) n.+1 +
  heat p pi pj pk (fJ (iter n.+1 (propagate p pi pj pk) s))
    (fJ (iter n.+2 (propagate p pi pj pk) s)) =
  energy_at p pi pj pk (fun m => iter m (propagate p pi pj pk) s) n.
Proof. exact energy_run. Qed.
Print Assumptions C195_balance.
Theorem C195_conserved : forall (R : realFieldType) (p : par R) pi pj pk s n,
  walls pi pj pk s -> (forall i j k, interior pi pj pk i j k -> good_cell p s i j k) ->
  (forall i j k, interior pi pj pk i j k -> vacuum_cell p i j k \/ conductor_cell p i j k) ->
  constants_ok p -> spacings_ok p pk ->
  energy_at p pi pj pk (fun m => iter m (propagate p pi pj pk) s) n =
  energy_at p pi pj pk (fun m => iter m (propagate p pi pj pk) s) 0.
Proof. exact energy_kept. Qed.
Print Assumptions C195_conserved.
Theorem C195_dissipates : forall (R : realFieldType) (p : par R) pi pj pk s n,
  walls pi pj pk s -> (forall i j k, interior pi pj pk i j k -> good_cell p s i j k) ->
  passive p pi pj pk -> constants_ok p -> spacings_ok p pk ->
  energy_at p pi pj pk (fun m => iter m (propagate p pi pj pk) s) n.+1 <=
  energy_at p pi pj pk (fun m => iter m (propagate p pi pj pk) s) n.
Proof. exact energy_iter. Qed.
Print Assumptions C195_dissipates.
(* the hypotheses hold for a box of metal with a field in one cell *)
Example C195_ex (R : realFieldType) : let p := p_test (1 : R) 1 true 0 in
  [/\ walls 2 2 2 (s_fast R),
      (forall i j k, interior 2 2 2 i j k -> good_cell p (s_fast R) i j k),
      passive p 2 2 2, constants_ok p & spacings_ok p 2].
Proof.
move=> p; have n1 : (1 : R) <> 0 by apply/eqP; exact: oner_neq0.
have [_ [w _]] := unstable R.
have np n : n.+1%:R <> 0 :> R by apply/eqP; rewrite pnatr_eq0.
split=> //.
- move=> i j k _; right; left; split.
    by split; [exact: n1 | apply/eqP; rewrite (eqr_nat R 1 100) | apply/eqP; rewrite (eqr_nat R 1 1000)].
  rewrite /p /= !mulr1 expr1n -[1]/(1%:R) -!(natrD, natrM).
  by split; [exact: n1 | exact: np | exact: np].
- by split=> [|i j k _]; [split=> //=; rewrite ?ltr01 ?ler01 | exact: ler01].
- by split=> // k _; rewrite /p /= -[1 + 1](mulr2n 1); exact: np.
Qed.

(** C196.  In a closed box filled with a lossless dielectric on a uniform grid
    the fields stay bounded for ever under the Courant condition
    (c dt)^2 (1/dx^2 + 1/dy^2 + 1/dz^2) < min eps. *)
Theorem C196_bounded : forall (R : realFieldType) (p : par R) pi pj pk (dz em : R),
  dielectric p pi pj pk dz em -> courant p dz em ->
  forall s, walls pi pj pk s ->
  exists C, forall n,
    normsq pi pj pk (fE (iter n (propagate p pi pj pk) s)) +
    normsq pi pj pk (fH (iter n (propagate p pi pj pk) s)) <= C.
Proof. exact stable. Qed.
Print Assumptions C196_bounded.
(** Without it they can grow like 2^n. *)
Theorem C196_any_step_refuted : forall R : realFieldType, exists (p : par R) s,
  dielectric p 2 2 2 1 1 /\ walls 2 2 2 s /\
  forall n, 2%:R ^+ n <= normsq 2 2 2 (fE (iter n (propagate p 2 2 2) s)).
Proof. by move=> R; exists (p_fast R), (s_fast R); exact: unstable. Qed.
Print Assumptions C196_any_step_refuted.
Example C196_ex (R : realFieldType) : let p := p_test (2%:R^-1 : R) 0 true 0 in
  [/\ dielectric p 2 2 2 1 1, courant p 1 1 & walls 2 2 2 (s_fast R)].
Proof.
move=> p; have [_ [w _]] := unstable R; split=> //.
  split; first by split=> //=; rewrite ?ltr01 // invr_gt0 ltr0n.
  by split; [split=> //=; exact: ltr01 | split; [exact: ltr01 | move=> i j k _; split=> //; split=> //=]].
rewrite /courant /invsq /p /= !expr1n !invr1 !mulr1 exprVn mulrC -natrX -[1]/(1%:R).
by rewrite -!natrD ltr_pdivr_mulr ?ltr0n // mul1r ltr_nat.
Qed.

(** C197.  In the absorbing layer the update solves the equations of the
    uniaxial layer; without absorption it is the ordinary step; a displacement
    field that is not driven decays. *)
Theorem C197_equations : forall (R : realFieldType) (p : par R) pi pj pk s i j k,
  interior pi pj pk i j k -> layer_cell p i j k -> layer_ok p i j k -> eps_ok p i j k ->
  layer_E p (fE s) (fE (propagate p pi pj pk s)) (fD s) (fD (propagate p pi pj pk s)) (fH s) i j k /\
  layer_H p (fH s) (fH (propagate p pi pj pk s)) (fB s) (fB (propagate p pi pj pk s))
    (fE (propagate p pi pj pk s)) i j k.
Proof. exact layer_laws. Qed.
Print Assumptions C197_equations.
Theorem C197_off : forall (R : realFieldType) (p : par R) pi pj pk s i j k,
  interior pi pj pk i j k -> layer_cell p i j k -> layer_ok p i j k -> eps_ok p i j k ->
  layer_off p i j k ->
  ampere (eo p) (dt p) (ds_x p) (ds_y p) (ds_nz p) (epsilon p) (fE s)
    (fE (propagate p pi pj pk s)) (fH s) (no_current R) i j k /\
  faraday (uo p * ups p) (dt p) (ds_x p) (ds_y p) (ds_nz p)
    (fE (propagate p pi pj pk s)) (fH s) (fH (propagate p pi pj pk s)) i j k.
Proof. exact layer_none. Qed.
Print Assumptions C197_off.
Theorem C197_decay : forall (R : realFieldType) (p : par R) pi pj pk s i j k,
  interior pi pj pk i j k -> layer_cell p i j k -> layer_ok p i j k -> eps_ok p i j k ->
  (by_ (ds_y p) (cz (fH s)) i j k - bz (dual (ds_nz p)) (cy (fH s)) i j k = 0 ->
   cx (fD (propagate p pi pj pk s)) i j k ^+ 2 <= cx (fD s) i j k ^+ 2 /\
   (0 < sgy p j -> cx (fD s) i j k <> 0 ->
    cx (fD (propagate p pi pj pk s)) i j k ^+ 2 < cx (fD s) i j k ^+ 2)) /\
  (bz (dual (ds_nz p)) (cx (fH s)) i j k - bx (ds_x p) (cz (fH s)) i j k = 0 ->
   cy (fD (propagate p pi pj pk s)) i j k ^+ 2 <= cy (fD s) i j k ^+ 2 /\
   (0 < sgz p k -> cy (fD s) i j k <> 0 ->
    cy (fD (propagate p pi pj pk s)) i j k ^+ 2 < cy (fD s) i j k ^+ 2)) /\
  (bx (ds_x p) (cy (fH s)) i j k - by_ (ds_y p) (cx (fH s)) i j k = 0 ->
   cz (fD (propagate p pi pj pk s)) i j k ^+ 2 <= cz (fD s) i j k ^+ 2 /\
   (0 < sgx p i -> cz (fD s) i j k <> 0 ->
    cz (fD (propagate p pi pj pk s)) i j k ^+ 2 < cz (fD s) i j k ^+ 2)).
Proof. exact layer_decay. Qed.
Print Assumptions C197_decay.
Example C197_ex (R : realFieldType) (i j k : nat) : let p := p_test (1 : R) 0 false 1 in
  [/\ layer_cell p i j k, layer_ok p i j k, eps_ok p i j k & 0 < sgy p j].
Proof.
move=> p; split=> //.
- by split; [split=> //=; exact: ltr01|split; [split=> //=; exact: ltr01|split; split=> //=; exact: ler01]].
- by do !split; apply/eqP; exact: oner_neq0.
- exact: ltr01.
Qed.

(** C198.  In a metal cell the step solves Ampere's law with the mean Drude
    current, and the current obeys the damped oscillator equation. *)
Theorem C198_drude : forall (R : realFieldType) (p : par R) pi pj pk s i j k,
  interior pi pj pk i j k -> metal_cell p i j k -> constants_ok p ->
  2%:R + mgamma p i j k * dt p <> 0 ->
  2%:R * eo p * mepsilon p i j k * (2%:R + mgamma p i j k * dt p) +
  dt p * (momega p i j k ^+ 2 * eo p * dt p) <> 0 ->
  ampere (eo p) (dt p) (ds_x p) (ds_y p) (ds_nz p)
    (fun a b c => V3 (mepsilon p a b c) (mepsilon p a b c) (mepsilon p a b c))
    (fE s) (fE (propagate p pi pj pk s)) (fH s)
    (mean (fJ (propagate p pi pj pk s)) (fJ s)) i j k /\
  drude (eo p) (dt p) (mgamma p i j k) (momega p i j k) (fE s)
    (fE (propagate p pi pj pk s)) (fJ s) (fJ (propagate p pi pj pk s)) i j k.
Proof. exact metal_laws. Qed.
Print Assumptions C198_drude.
Example C198_ex (R : realFieldType) (i j k : nat) : let p := p_test (1 : R) 1 true 0 in
  [/\ metal_cell p i j k, constants_ok p, 2%:R + mgamma p i j k * dt p <> 0 &
      2%:R * eo p * mepsilon p i j k * (2%:R + mgamma p i j k * dt p) +
      dt p * (momega p i j k ^+ 2 * eo p * dt p) <> 0].
Proof.
move=> p; have n1 : (1 : R) <> 0 by apply/eqP; exact: oner_neq0.
have np n : n.+1%:R <> 0 :> R by apply/eqP; rewrite pnatr_eq0.
split=> //.
- by split; [exact: n1 | apply/eqP; rewrite (eqr_nat R 1 100) | apply/eqP; rewrite (eqr_nat R 1 1000)].
- by rewrite /p /= mulr1 -[1]/(1%:R) -natrD; exact: np.
- by rewrite /p /= !mulr1 expr1n -[1]/(1%:R) -!(natrD, natrM); exact: np.
Qed.
