(** Properties of whole propagation steps (C220, C221). *)
From mathcomp Require Import all_ssreflect all_fingroup all_algebra all_field.
From Verif Require Import LinModel LinSpec LinProofs EBModel EbsModel EbsSpec EbsProofs EbsMore EbsLast.
Set Implicit Arguments.
Unset Strict Implicit.
Unset Printing Implicit Defensive.
Import Order.TTheory GRing.Theory Num.Theory.
Local Open Scope ring_scope.

(** C220: for given fields the factor of a walker's weight has no term in
    sqrt(dt); averaged over fields of mean zero and variance one its term in dt is minus the
    local energy, up to a constant that is the same for all walkers. *)
Theorem C220_local_energy (F : numFieldType) (conj : {rmorphism F -> F}) (im : F)
  (expm : forall n, 'M[F]_n -> 'M[F]_n) (expf : F -> F) (bound : F) (order : nat) :
  im ^+ 2 = -1 -> is_expm expm -> is_exp expf -> 0 < bound -> (1 < order)%N ->
  forall p nf na nb (L : 'I_nf -> 'M[F]_p), (forall g, map_mx conj (L g) = L g) ->
  forall (Wa Ta : 'M[F]_(p, na)) (Wb Tb : 'M[F]_(p, nb)) Ga Gb,
  slater conj Ta Wa != 0 -> slater conj Tb Wb != 0 ->
  is_green conj Ta Wa Ga -> is_green conj Tb Wb Gb ->
  forall E ha hb, unit_fields E -> exists c : ('I_nf -> F) -> F,
  (forall xi, decays_at (uhf_factor conj im expm expf bound order L ha hb Wa Ta Wb Tb xi) (c xi))
  /\ E c = electronic L ha hb Ga Gb + 2%:R^-1 * (\sum_g one_body (L g) (rho_uhf conj Ta Tb) ^+ 2).
Proof. exact: uhf_rate. Qed.
Print Assumptions C220_local_energy.
Theorem C220_finite_rule (F : numFieldType) (conj : {rmorphism F -> F}) (im : F)
  (expm : forall n, 'M[F]_n -> 'M[F]_n) (expf : F -> F) (bound : F) (order : nat) :
  im ^+ 2 = -1 -> is_expm expm -> is_exp expf -> 0 < bound -> (1 < order)%N ->
  forall p nf na nb (L : 'I_nf -> 'M[F]_p), (forall g, map_mx conj (L g) = L g) ->
  forall (Wa Ta : 'M[F]_(p, na)) (Wb Tb : 'M[F]_(p, nb)) Ga Gb,
  slater conj Ta Wa != 0 -> slater conj Tb Wb != 0 ->
  is_green conj Ta Wa Ga -> is_green conj Tb Wb Gb ->
  forall ws ha hb, unit_fields (rule ws) ->
  decays_at (fun s => rule ws (fun xi => uhf_factor conj im expm expf bound order L ha hb Wa Ta Wb Tb xi s))
    (electronic L ha hb Ga Gb + 2%:R^-1 * (\sum_g one_body (L g) (rho_uhf conj Ta Tb) ^+ 2)).
Proof. exact: uhf_rule_rate. Qed.
Print Assumptions C220_finite_rule.
(** The same with the energy the code reports for the walker, [enuc] left out. *)
Theorem C220_reported_energy (F : numFieldType) (conj : {rmorphism F -> F}) (im : F)
  (expm : forall n, 'M[F]_n -> 'M[F]_n) (expf : F -> F) (bound : F) (order : nat) :
  im ^+ 2 = -1 -> is_expm expm -> is_exp expf -> 0 < bound -> (1 < order)%N ->
  forall p nf na nb (L : 'I_nf -> 'M[F]_p), (forall g, map_mx conj (L g) = L g) ->
  forall (Wa Ta : 'M[F]_(p, na)) (Wb Tb : 'M[F]_(p, nb)),
  slater conj Ta Wa != 0 -> slater conj Tb Wb != 0 ->
  forall ws ha hb enuc, unit_fields (rule ws) ->
  let e := energy_uhf conj L ha hb enuc Wa Ta Wb Tb in
  decays_at (fun s => rule ws (fun xi => uhf_factor conj im expm expf bound order L ha hb Wa Ta Wb Tb xi s))
    (e.1 + e.2 - enuc + 2%:R^-1 * (\sum_g one_body (L g) (rho_uhf conj Ta Tb) ^+ 2)).
Proof. exact: uhf_reported. Qed.
Print Assumptions C220_reported_energy.
(** The bound of the force bias: small components are kept, larger ones get
    modulus one and keep their phase. *)
Theorem C220_bounded_bias (F : numFieldType) (bound x : F) : 10%:R ^- 12 <= bound ->
  (`|x| <= bound -> rescale bound x = x)
  /\ (bound < `|x| -> `|rescale bound x| = 1 /\ rescale bound x * `|x| = x).
Proof. exact: rescale_bounds. Qed.
Print Assumptions C220_bounded_bias.
(** A closed shell is the special case of equal spins. *)
Theorem C220_closed_shell (F : numFieldType) (conj : {rmorphism F -> F}) (im : F)
  (expm : forall n, 'M[F]_n -> 'M[F]_n) (expf : F -> F) (bound : F) (order : nat)
  p nf n (L : 'I_nf -> 'M[F]_p) h (W T : 'M[F]_(p, n)) xi s :
  rhf_factor conj im expm expf bound order L h W T xi s
  = uhf_factor conj im expm expf bound order L h h W T W T xi s.
Proof. exact: rhf_uhf. Qed.
Print Assumptions C220_closed_shell.
(** The contracts can be met, and the rate is not trivial. *)
Example C220_contracts : [/\ is_expm (@expm1 [numFieldType of algC]), is_exp (@exp2 [numFieldType of algC]),
  unit_fields (rule (coin [numFieldType of algC])), 'i ^+ 2 = -1 :> algC
  & is_green [rmorphism of @conjC [numClosedFieldType of algC]] (1%:M : 'M[algC]_1) 1%:M 1%:M].
Proof. exact: ex_contracts. Qed.
Example C220_example : exists r : algC, r != 0 /\
  decays_at (fun s => rule (coin [numFieldType of algC]) (fun xi =>
    uhf_factor [rmorphism of @conjC [numClosedFieldType of algC]] 'i (@expm1 [numFieldType of algC]) (@exp2 [numFieldType of algC]) 1 6
      (fun _ : 'I_1 => 2%:M : 'M[algC]_1) 1%:M 1%:M 1%:M 1%:M 1%:M 1%:M xi s)) r.
Proof. exact: ex_rate. Qed.

(** C221: the coupled step in the product treatment of the coupling. *)
Theorem C221_coupled_rate_partial (F : numFieldType) (conj : {rmorphism F -> F}) (im : F)
  (expm : forall n, 'M[F]_n -> 'M[F]_n) (expf : F -> F) (bound : F) (order : nat) :
  im ^+ 2 = -1 -> is_expm expm -> is_exp expf -> 0 < bound -> (1 < order)%N ->
  forall p nf na nb (L : 'I_nf -> 'M[F]_p), (forall g, map_mx conj (L g) = L g) ->
  forall (Wa Ta : 'M[F]_(p, na)) (Wb Tb : 'M[F]_(p, nb)) Ga Gb,
  slater conj Ta Wa != 0 -> slater conj Tb Wb != 0 ->
  is_green conj Ta Wa Ga -> is_green conj Tb Wb Gb ->
  forall d nm (geb : 'I_nm -> 'M[F]_p) (phi psi : 'cV[F]_d),
  bovlp conj phi psi != 0 ->
  forall E first ha hb Q HB HZ, unit_fields E -> exists c : ('I_nf -> F) -> F,
  (forall xi, decays_at (coupled_factor conj im expm expf bound order L geb false first ha hb Q HB HZ
                 Wa Ta Wb Tb phi psi xi) (c xi))
  /\ E c = electronic L (ha + oei Q geb) (hb + oei Q geb) Ga Gb
           + 2%:R^-1 * (\sum_g one_body (L g) (rho_uhf conj Ta Tb) ^+ 2)
           + ((if first then 0 else mixed conj psi phi HB) + mixed conj psi phi HZ).
Proof. exact: coupled_rate. Qed.
Print Assumptions C221_coupled_rate_partial.
Theorem C221_coupling_part (F : numFieldType) p nf (L : 'I_nf -> 'M[F]_p) nm (geb : 'I_nm -> 'M[F]_p)
  ha hb Ga Gb (Q : 'I_nm -> F) :
  electronic L (ha + oei Q geb) (hb + oei Q geb) Ga Gb
  = electronic L ha hb Ga Gb + \sum_a Q a * one_body (geb a) (Ga + Gb).
Proof. exact: electronic_oei. Qed.
Print Assumptions C221_coupling_part.
Theorem C221_bosons_off (F : numFieldType) (conj : {rmorphism F -> F}) (im : F)
  (expm : forall n, 'M[F]_n -> 'M[F]_n) (expf : F -> F) (bound : F) (order : nat)
  p nf na nb (L : 'I_nf -> 'M[F]_p) (Wa Ta : 'M[F]_(p, na)) (Wb Tb : 'M[F]_(p, nb))
  d nm (geb : 'I_nm -> 'M[F]_p) (phi psi : 'cV[F]_d) first ha hb Q HB HZ xi s :
  coupled_factor conj im expm expf bound order L geb true first ha hb Q HB HZ Wa Ta Wb Tb phi psi xi s
  = uhf_factor conj im expm expf bound order L ha hb Wa Ta Wb Tb xi s.
Proof. exact: coupled_off. Qed.
Print Assumptions C221_bosons_off.
(** The energy of the free bosons: state [k] of mode [a] has energy w_a k. *)
Theorem C221_free_bosons (F : numFieldType) (modes : seq (nat * F)) (dim a k i j : nat) : (k < dim)%N ->
  free_matrix modes dim (a * dim + k)%N (a * dim + k)%N = (nth (0%N, 0) modes a).2 * k%:R
  /\ (i != j -> free_matrix modes dim i j = 0).
Proof. exact: free_entries. Qed.
Print Assumptions C221_free_bosons.
(** Expected: electronic energy, free bosons and the coupling once.  The
    coupling comes in twice, from the one-body matrix and from the bosonic
    operator, each of the same size: one walker of weight 1 that equals the
    trial, one orbital, one mode with two states, normalised. *)
Theorem C221_coupling_once_refuted : exists (phi : 'cV[algC]_2) (geb : 'I_1 -> 'M[algC]_1),
  let cj := [rmorphism of @conjC [numClosedFieldType of algC]] : {rmorphism algC -> algC} in
  let sq n := sqrtC (n%:R : algC) in
  let G := 1%:M : 'M[algC]_1 in
  let Q := fun _ : 'I_1 => qalpha cj sq [:: (1, fun k => phi k 0)] in
  let z := zlambda (EBModel.rho [:: (1, gf_total_uhf G G)]) geb 0 in
  let HZ := fock 2 (boson_adag_plus_a sq [:: (2%N, z)]) in
  [/\ \sum_k phi k 0 * (phi k 0)^* = 1, is_green cj G G G,
      mixed cj phi phi HZ = 48%:R / 25%:R, Q 0 * one_body (geb 0) (G + G) = 48%:R / 25%:R
    & forall (expm : forall n, 'M[algC]_n -> 'M[algC]_n) expf bound order w,
      is_expm expm -> is_exp expf -> 0 < bound -> (1 < order)%N ->
      let HB := fock 2 (free_matrix [:: (2%N, w)] 2) in
      ~ decays_at (coupled_factor cj 'i expm expf bound order (fun _ : 'I_0 => 0) geb false false 0 0 Q HB HZ
                     G G G G phi phi (fun=> 0))
          (electronic (fun _ : 'I_0 => 0) 0 0 G G + mixed cj phi phi HB + mixed cj phi phi HZ)].
Proof. exact: coupling_twice. Qed.
Print Assumptions C221_coupling_once_refuted.
