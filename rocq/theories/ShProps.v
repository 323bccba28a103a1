(** Theorems about the hopping part of openms/qmd/sh.py.
    C175, C176, C177, C178. *)
From Coq Require Import Permutation Sorted.
From Verif Require Import Base HopModel HopSpec ShModel ShSpec ShProofs.
Open Scope Q_scope.

(** C175.  The probability table cannot be built for one molecule or more. *)
Theorem C175_table_refuted : forall nmol states, (0 < nmol)%nat -> states <> [] ->
  hopping_probability nmol states = Err TypeError.
Proof. exact hopping_probability_err. Qed.
Print Assumptions C175_table_refuted.

(** The density is conj(c_j) c_k. *)
Theorem C175_density : forall c j k,
  fst (densities c j k) == fst (cmul (cconj (c j)) (c k)) /\
  snd (densities c j k) == snd (cmul (cconj (c j)) (c k)).
Proof. exact dens_spec. Qed.
Print Assumptions C175_density.
(** Read with range(nstates), an entry is Tully's probability times the ratio
    of the population of the current state to that of the target. *)
Theorem C175_read_partial : forall n edt c ham cur j, (j < n)%nat -> j <> cur ->
  ~ population c cur == 0 -> ~ population c j == 0 ->
  nth j (hop_row_read n edt (densities c) ham cur) 0 * population c j
  == tully edt c ham cur j * population c cur.
Proof. exact read_tully. Qed.
Print Assumptions C175_read_partial.
Theorem C175_equal_partial : forall n edt c ham cur j, (j < n)%nat -> j <> cur ->
  ~ population c cur == 0 -> population c j == population c cur ->
  nth j (hop_row_read n edt (densities c) ham cur) 0 == tully edt c ham cur j.
Proof. exact read_tully_equal. Qed.
Print Assumptions C175_equal_partial.
(** A normalised state where Tully's probability is below one tenth and the
    entry of the table is above one. *)
Theorem C175_target_refuted : exists edt c ham, 0 < edt /\ antisym 2 ham /\
  population c 0 + population c 1 == 1 /\ 0 < population c 0 /\ 0 < population c 1 /\
  0 < tully edt c ham 0 1 < 1 # 10 /\
  1 < nth 1 (hop_row_read 2 edt (densities c) ham 0) 0.
Proof. exact target_refuted. Qed.
Print Assumptions C175_target_refuted.
(** The population that the code's own propagation moves out of a state ... *)
Theorem C175_flux : forall n h c k,
  population_rate c (coef_dot n h c) k == - qsum (map (outflow h c k) (seq 0 n)).
Proof. exact flux. Qed.
Print Assumptions C175_flux.
(** ... is not what the table is made of: no population flows, yet a hop has
    positive probability. *)
Theorem C175_flux_refuted : exists edt c ham, 0 < edt /\ antisym 2 ham /\
  population c 0 + population c 1 == 1 /\
  (forall j, (j < 2)%nat -> outflow ham c 0 j == 0) /\
  0 < nth 1 (hop_row_read 2 edt (densities c) ham 0) 0.
Proof. exact flux_refuted. Qed.
Print Assumptions C175_flux_refuted.
Example C175_ex : nth 1 (hop_row_read 2 (1 # 10) (densities (c2 (3 # 5) (4 # 5))) (h2 (- 1)) 0) 0 == 3 # 20.
Proof. reflexivity. Qed.

(** C176.  A molecule only ends in a state whose probability beats one of the
    random numbers, hence never in one with probability zero or less. *)
Theorem C176_target : forall dt n argsort e nacr p u s v s' v', sorts argsort p ->
  (forall x, In x u -> 0 <= x) ->
  check_hops1 dt n argsort e nacr p u (s, v) = Ok (s', v') ->
  s' = s \/ (s' < length p)%nat /\ 0 < nth s' p 0 /\ (exists x, In x u /\ x < nth s' p 0).
Proof. exact hop_target. Qed.
Print Assumptions C176_target.
(** Nothing changes when every random number is at least the probability it is
    compared with. *)
Theorem C176_none : forall dt n argsort e nacr p u s v, sorts argsort p -> length p = n -> length u = n ->
  (forall k i x, nth_error (argsort p) k = Some i -> nth_error u k = Some x -> nth i p 0 <= x) ->
  check_hops1 dt n argsort e nacr p u (s, v) = Ok (s, v).
Proof. exact hop_none. Qed.
Print Assumptions C176_none.
(** When no hop is frustrated the end state is the last successful one in the
    order of increasing probability. *)
Theorem C176_last : forall dt n argsort e nacr p u s v, sorts argsort p -> length p = n -> length u = n -> (s < n)%nat ->
  (forall i j w, (i < n)%nat -> (j < n)%nat -> length w = length v ->
    exists w', velocity_rescaling dt e nacr i j w = Ok (j, w', 1%nat) /\ length w' = length v) ->
  exists v', check_hops1 dt n argsort e nacr p u (s, v) =
    Ok (last_hop (argsort p) (map (fun t => qltb (snd t) (nth (fst t) p 0)) (combine (argsort p) u)) s, v').
Proof. exact hop_last. Qed.
Print Assumptions C176_last.
(** With independent random numbers a state is reached with its probability
    times the probability that no later event happens. *)
Theorem C176_distribution_partial : forall idx q s k j, length idx = length q -> NoDup idx ->
  nth_error idx k = Some j -> j <> s ->
  prob q (fun b => Nat.eqb (last_hop idx b s) j) == nth k q 0 * none_of (skipn (S k) q).
Proof. exact prob_hop. Qed.
Print Assumptions C176_distribution_partial.
Theorem C176_stay_partial : forall idx q s k, length idx = length q -> NoDup idx -> nth_error idx k = Some s ->
  nth k q 0 == 0 -> prob q (fun b => Nat.eqb (last_hop idx b s) s) == none_of q.
Proof. exact prob_stay0. Qed.
Print Assumptions C176_stay_partial.
(** So neither the probability of a target nor that of staying is the one that
    was asked for. *)
Theorem C176_distribution_refuted : exists idx q s k j, length idx = length q /\ NoDup idx /\
  nth_error idx k = Some j /\ j <> s /\ qsum q == 1 /\ StronglySorted Qle q /\
  ~ prob q (fun b => Nat.eqb (last_hop idx b s) j) == nth k q 0 /\
  ~ prob q (fun b => Nat.eqb (last_hop idx b s) s) == 1 - qsum q.
Proof. exact hop_prob_refuted. Qed.
Print Assumptions C176_distribution_refuted.
(** Two hops can happen in one step; the velocity is then not that of the hop
    from the first to the last state. *)
Theorem C176_single_refuted : exists dt argsort e nacr p u s v s' w, sorts argsort p /\ nth s p 0 == 0 /\ qsum p <= 1 /\
  (forall x, In x u -> 0 <= x < 1) /\
  check_hops1 dt 3 argsort e nacr p u (s, v) = Ok (s', w) /\ s' <> s /\
  forall x t, velocity_rescaling dt e nacr s s' v = Ok (s', x, t) -> ~ same_vec w x.
Proof. exact double_refuted. Qed.
Print Assumptions C176_single_refuted.
(** Every molecule is treated on its own. *)
Theorem C176_molecules : forall dt n argsort e nacr mols out,
  check_hops dt n argsort e nacr mols = Ok out ->
  length out = length mols /\ forall i m, nth_error mols i = Some m ->
    exists y, nth_error out i = Some y /\
      check_hops1 dt n argsort e nacr (fst (fst m)) (snd (fst m)) (snd m) = Ok y.
Proof. exact (fun dt n a e nacr mols out => rmapM_nth _ mols out). Qed.
Print Assumptions C176_molecules.
Example C176_ex : check_hops 1 2 (fun p => seq 0 (length p)) [0; 1] (fun _ _ => [0])
  [([0; 1 # 2], [1 # 4; 1 # 4], (0%nat, [1])); ([0; 1 # 8], [1 # 4; 1 # 4], (0%nat, [1]))]
  = Ok [(1%nat, [1 - (0 - 1) * 0 * 1]); (0%nat, [1])].
Proof. reflexivity. Qed.

(** C177.  A hop is frustrated exactly when it would reverse a component of the
    velocity; then nothing changes, otherwise the velocity changes by the
    energy gap times the coupling vector times dt. *)
Theorem C177_rescaling : forall dt e nacr si sf v a b, nth_error e si = Some a -> nth_error e sf = Some b ->
  length (nacr si sf) = length v ->
  let ok := forall k x y, nth_error v k = Some x -> nth_error (nacr si sf) k = Some y ->
              0 <= (x - (a - b) * y * dt) * x in
  (ok /\ exists w, velocity_rescaling dt e nacr si sf v = Ok (sf, w, 1%nat) /\ length w = length v /\
     forall k x y, nth_error v k = Some x -> nth_error (nacr si sf) k = Some y ->
       nth_error w k = Some (x - (a - b) * y * dt))
  \/ (~ ok /\ velocity_rescaling dt e nacr si sf v = Ok (si, v, 2%nat)).
Proof. exact rescale_spec. Qed.
Print Assumptions C177_rescaling.
Theorem C177_degenerate : forall dt e nacr si sf v a b, nth_error e si = Some a -> nth_error e sf = Some b ->
  a == b -> length (nacr si sf) = length v ->
  exists w, velocity_rescaling dt e nacr si sf v = Ok (sf, w, 1%nat) /\ same_vec w v.
Proof. exact rescale_degenerate. Qed.
Print Assumptions C177_degenerate.
(** Hopping up along the motion makes the total energy grow for every mass,
    gap and step. *)
Theorem C177_uphill : forall m dt a b v y, 0 < m -> 0 < dt -> a < b -> 0 < v -> 0 < y ->
  exists w, velocity_rescaling dt [a; b] (fun _ _ => [y]) 0 1 [v] = Ok (1%nat, [w], 1%nat) /\
    a + kinetic [m] [v] < b + kinetic [m] [w].
Proof. exact uphill. Qed.
Print Assumptions C177_uphill.
(** In particular with less kinetic energy than the gap. *)
Theorem C177_energy_refuted : exists m dt e nacr si sf v w a b, 0 < m /\ 0 < dt /\
  nth_error e si = Some a /\ nth_error e sf = Some b /\ a < b /\
  velocity_rescaling dt e nacr si sf [v] = Ok (sf, [w], 1%nat) /\
  kinetic [m] [v] < b - a /\ a + kinetic [m] [v] < b + kinetic [m] [w].
Proof. exact energy_refuted. Qed.
Print Assumptions C177_energy_refuted.
(** A hop there and back does not restore the velocity: with antisymmetric
    couplings the change is made twice. *)
Theorem C177_back : forall dt a b v y, 0 < v -> 0 <= (a - b) * y * dt -> 2 * ((a - b) * y * dt) <= v ->
  let nacr := fun i j : nat => if Nat.ltb i j then [y] else [- y] in
  exists w w', velocity_rescaling dt [a; b] nacr 0 1 [v] = Ok (1%nat, [w], 1%nat) /\
    velocity_rescaling dt [a; b] nacr 1 0 [w] = Ok (0%nat, [w'], 1%nat) /\
    w' == v - 2 * ((a - b) * y * dt).
Proof. exact back. Qed.
Print Assumptions C177_back.
(** Momentum is kept for equal masses only. *)
Theorem C177_momentum_partial : forall dt e nacr si sf v a b m mu s w t,
  nth_error e si = Some a -> nth_error e sf = Some b ->
  length (nacr si sf) = length v -> length m = length v -> (forall x, In x m -> x == mu) ->
  qsum (nacr si sf) == 0 ->
  velocity_rescaling dt e nacr si sf v = Ok (s, w, t) -> momentum m w == momentum m v.
Proof. exact momentum_partial. Qed.
Print Assumptions C177_momentum_partial.
Theorem C177_momentum_refuted : exists m dt e nacr si sf v w,
  (forall x, In x m -> 0 < x) /\ qsum (nacr si sf) == 0 /\
  velocity_rescaling dt e nacr si sf v = Ok (sf, w, 1%nat) /\ ~ momentum m w == momentum m v.
Proof. exact momentum_refuted. Qed.
Print Assumptions C177_momentum_refuted.
Example C177_ex : velocity_rescaling 1 [2; 0] (fun _ _ => [1]) 0 1 [1] = Ok (0%nat, [1], 2%nat).
Proof. reflexivity. Qed.

(** C178.  The decoherence reset is the unit vector of the state. *)
Theorem C178_unit : forall n s, (s < n)%nat ->
  exists c, instantaneous_decoherence n (Z.of_nat s) = Ok c /\ length c = n /\
    (forall j, (j < n)%nat -> nth_error c j = Some (if Nat.eqb j s then 1 else 0)) /\
    qsum (map (fun x => x * x) c) == 1.
Proof. exact decoherence. Qed.
Print Assumptions C178_unit.
Theorem C178_range : forall n s, (Z.of_nat n <= s \/ s < - Z.of_nat n)%Z ->
  instantaneous_decoherence n s = Err IndexError.
Proof. exact decoherence_err. Qed.
Print Assumptions C178_range.
Example C178_ex : instantaneous_decoherence 3 1 = Ok [0; 1; 0].
Proof. reflexivity. Qed.
