(** Theorems about openms/models/aggregates.py.  C183, C184, C185, C186. *)
From mathcomp Require Import all_ssreflect all_algebra.
From Verif Require Base.
From Verif Require Import AggModel AggSpec AggProofs.
Set Implicit Arguments.
Unset Strict Implicit.
Unset Printing Implicit Defensive.
Import GRing.Theory Num.Theory Order.TTheory.
Local Open Scope ring_scope.

(** C183.  The spectrum is a sum of Lorentzians weighted by squared dipoles. *)
Theorem C183_lines : forall (F : realFieldType) es st (w d : nat -> F) gamma i, (i < size es)%N ->
  nth 0 (linear_spec es st w d gamma) i = \sum_(j <- st) d j ^+ 2 * lorentz gamma (nth 0 es i - w j).
Proof. exact spec_nth. Qed.
Print Assumptions C183_lines.
Theorem C183_size : forall (F : realFieldType) es st (w d : nat -> F) gamma,
  size (linear_spec es st w d gamma) = size es.
Proof. exact spec_size. Qed.
Print Assumptions C183_size.
Theorem C183_nonneg : forall (F : realFieldType) es st (w d : nat -> F) gamma i, 0 <= gamma -> (i < size es)%N ->
  0 <= nth 0 (linear_spec es st w d gamma) i.
Proof. exact spec_ge0. Qed.
Print Assumptions C183_nonneg.
Theorem C183_bounded : forall (F : realFieldType) es st (w d : nat -> F) gamma i, 0 < gamma -> (i < size es)%N ->
  nth 0 (linear_spec es st w d gamma) i <= (\sum_(j <- st) d j ^+ 2) / gamma.
Proof. exact spec_le. Qed.
Print Assumptions C183_bounded.
Theorem C183_additive : forall (F : realFieldType) es s1 s2 (w d : nat -> F) gamma i, (i < size es)%N ->
  nth 0 (linear_spec es (s1 ++ s2) w d gamma) i =
  nth 0 (linear_spec es s1 w d gamma) i + nth 0 (linear_spec es s2 w d gamma) i.
Proof. exact spec_cat. Qed.
Print Assumptions C183_additive.
Theorem C183_order : forall (F : realFieldType) es s1 s2 (w d : nat -> F) gamma, perm_eq s1 s2 ->
  linear_spec es s1 w d gamma = linear_spec es s2 w d gamma.
Proof. exact spec_perm. Qed.
Print Assumptions C183_order.
(** The two-dimensional spectrum raises NameError for any energy list that is
    not empty. *)
Theorem C183_tdes_refuted : forall (F : realFieldType) (es : seq F) st w d1 nuv e2 d2 gamma, es != [::] ->
  tdes es st w d1 nuv e2 d2 gamma = Err Base.NameError.
Proof. exact tdes_refuted_all. Qed.
Print Assumptions C183_tdes_refuted.
Theorem C183_tdes_empty : forall (F : realFieldType) st (w : nat -> F) d1 nuv e2 d2 gamma,
  tdes [::] st w d1 nuv e2 d2 gamma = Ok [::].
Proof. reflexivity. Qed.
Print Assumptions C183_tdes_empty.
Example C183_ex (F : realFieldType) :
  nth 0 (linear_spec [:: 0; 1] [:: 0%N] (fun=> 0) (fun=> 2%:R) (1 : F)) 1 = 2%:R.
Proof.
rewrite C183_lines // big_seq1 /lorentz /= subr0 !expr1n mul1r -[1 + 1](mulr2n 1) expr2 -mulrA mulfV ?mulr1 //.
by rewrite pnatr_eq0.
Qed.

(** C184.  Imported as a module, the class cannot be built. *)
Theorem C184_construct_refuted : forall (F : realFieldType) n ne (eps t sig : F),
  dma_init BdModule n ne eps t sig = Err Base.AttributeError.
Proof. reflexivity. Qed.
Print Assumptions C184_construct_refuted.
(** Run as a script it starts from a zero matrix and no dipoles. *)
Theorem C184_start : forall (F : realFieldType) n ne (eps t sig : F), exists m,
  dma_init BdObject n ne eps t sig = Ok m /\
  [/\ nsite m = n, nexc m = minn ne n, (hopping m, epsilon m, sigma m) = (t, eps, sig),
      (forall p q, amat m p q = 0) & excdipole1 m = None /\ dipsortidx m = None].
Proof. by move=> F n ne eps t sig; eexists; split; first by []. Qed.
Print Assumptions C184_start.
(** Every call of kernel, the first or a later one, leaves sorted eigenvalues
    and orthonormal eigenvectors of the chain with that sample of energies. *)
Theorem C184_solves : forall (F : realFieldType) gauss eig argsort (m : dma F),
  hopping m != 0 -> clean (nsite m) (amat m) ->
  let g := gauss (epsilon m) (sigma m * `|hopping m|) in
  (forall a, (forall p q, (p < nsite m)%N -> (q < nsite m)%N -> a p q = chain g (hopping m) p q) ->
     eig_ok (nsite m) a (eig a)) ->
  (forall f, argsort_ok (nsite m) f (argsort f)) ->
  let m' := kernel gauss eig argsort m in
  [/\ nsite m' = nsite m, clean (nsite m) (amat m') &
   exists w v, [/\ evals m' = Some w, evecs m' = Some v & solves (nsite m) g (hopping m) w v]].
Proof. exact kernel_solves. Qed.
Print Assumptions C184_solves.
Theorem C184_energies : forall (F : realFieldType) (m : dma F) n e t w v,
  nsite m = n -> evals m = Some w -> solves n e t w v ->
  exists l, [/\ energies m = Ok l, size l = minn (nexc m) n, sorted <=%R l &
    forall u, (u < size l)%N -> nth 0 l u = w u].
Proof. exact energies_ok. Qed.
Print Assumptions C184_energies.
(** The strengths of all states add up to the number of sites. *)
Theorem C184_sum_rule : forall (F : realFieldType) n (e : nat -> F) t w v, solves n e t w v ->
  \sum_(u < n) strength n v u = n%:R.
Proof. exact solves_sum. Qed.
Print Assumptions C184_sum_rule.
Theorem C184_totdip : forall (F : realFieldType) argsort (m : dma F) e t w v,
  (0 < nsite m)%N -> evecs m = Some v -> excdipole1 m = None -> solves (nsite m) e t w v ->
  exists m', sortdipole argsort m = Ok m' /\ totdip m' = Some (nsite m)%:R.
Proof. exact totdip_ok. Qed.
Print Assumptions C184_totdip.
Theorem C184_trace : forall (F : realFieldType) n (e : nat -> F) t w v, solves n e t w v ->
  \sum_(u < n) w u = \sum_(i < n) e i.
Proof. exact solves_trace. Qed.
Print Assumptions C184_trace.
Theorem C184_band : forall (F : realFieldType) n (e : nat -> F) t w v u, (u < n)%N -> solves n e t w v ->
  exists2 i, (i < n)%N & `|w u - e i| <= 2%:R * `|t|.
Proof. exact solves_bound. Qed.
Print Assumptions C184_band.
(** A chain with an eigensolver meeting the contract (3-4-5 rotation). *)
Example C184_ex : exists (g : nat -> rat_realFieldType) w v, solves 2 g 12%:R w v /\ g 0%N != g 1%N.
Proof.
have h9 : (12%:R : rat_realFieldType) != 0 by vm_compute.
pose c : rat_realFieldType := 3%:R / 5%:R; pose s : rat_realFieldType := 4%:R / 5%:R.
have h1 : c ^+ 2 + s ^+ 2 = 1 by apply/eqP; vm_compute.
have h3 : 25%:R * (c * s) = 12%:R by apply/eqP; vm_compute.
have h5 : 25%:R * s ^+ 2 != 25%:R * c ^+ 2 by vm_compute.
clearbody c s.
pose g := val2 (25%:R * s ^+ 2) (25%:R * c ^+ 2).
pose m := Dma 2 2 0 (12%:R : rat_realFieldType) 1 (fun _ _ : nat => 0) None None None None None None.
have [] := @C184_solves rat_realFieldType (fun _ _ => g) (fun=> (val2 0 25%:R, vec2 c s)) (@asort rat_realFieldType 2) m h9.
- by move=> p q.
- move=> a ha; apply: eig2_ok => // p q hp hq; rewrite ha // !mul0r !add0r subr0 h3 //.
- by move=> f; apply: asort_ok.
move=> _ _ [w [v [_ _ h]]]; exists g, w, v; split; [exact: h|exact: h5].
Qed.

(** C185.  The first spectrum after construction uses the dipoles of its own
    sample. *)
Theorem C185_first : forall (F : realFieldType) (m : dma F) w v es sel gamma,
  evals m = Some w -> evecs m = Some v -> excdipole1 m = None ->
  exists m' d, [/\ linearabs m (Some es) sel gamma =
      Ok (m', linear_spec es (odflt (iota 0 (nexc m)) sel) w d gamma),
    excdipole1 m' = Some d & forall u, d u ^+ 2 = strength (nsite m) v u].
Proof. exact linearabs_fresh. Qed.
Print Assumptions C185_first.
(** After that every further sample is drawn with its own energies and the
    dipoles of the first one. *)
Theorem C185_cached : forall (F : realFieldType) gauss eig argsort (m : dma F) d es sel gamma,
  excdipole1 m = Some d ->
  exists w, evals (kernel gauss eig argsort m) = Some w /\
  linearabs (kernel gauss eig argsort m) (Some es) sel gamma =
  Ok (kernel gauss eig argsort m, linear_spec es (odflt (iota 0 (nexc m)) sel) w d gamma).
Proof. exact linearabs_stale. Qed.
Print Assumptions C185_cached.
Theorem C185_second_sample_refuted : exists (gauss1 gauss2 : nat -> rat_realFieldType) eig argsort
    (t : rat_realFieldType) m0 m1 m2 (sp1 sp2 : seq rat_realFieldType) w2 v2,
  let k1 := kernel (fun _ _ => gauss1) eig argsort m0 in
  let k2 := kernel (fun _ _ => gauss2) eig argsort m1 in
  [/\ forall g A, g = gauss1 \/ g = gauss2 ->
        (forall p r, (p < 2)%N -> (r < 2)%N -> A p r = chain g t p r) -> eig_ok 2 A (eig A),
      forall f, argsort_ok 2 f (argsort f) & dma_init BdObject 2 1 0 t 1 = Ok m0] /\
  [/\ linearabs k1 (Some [:: 0]) None 1 = Ok (m1, sp1),
      linearabs k2 (Some [:: 0]) None 1 = Ok (m2, sp2),
      evals k2 = Some w2 /\ evecs k2 = Some v2, solves 2 gauss2 t w2 v2 &
      sp2 != [:: \sum_(u < 1) strength 2 v2 u * lorentz 1 (0 - w2 u)]].
Proof. exact stale_rat. Qed.
Print Assumptions C185_second_sample_refuted.
(** Two equal sites with positive hopping: the default selection with Nexc = 1
    holds the dark state only and the spectrum is zero everywhere, although the
    full spectrum is positive everywhere. *)
Theorem C185_dark_refuted : forall R : rcfType, exists eig argsort (m0 : dma R) w v,
  let k := kernel (fun mu _ _ => mu) eig argsort m0 in
  [/\ dma_init BdObject 2 1 0 1 0 = Ok m0, evals k = Some w /\ evecs k = Some v,
      solves 2 (fun=> 0) 1 w v,
      forall es gamma, exists m', linearabs k (Some es) None gamma = Ok (m', nseq (size es) 0) &
      forall e gamma, 0 < gamma -> 0 < \sum_(u < 2) strength 2 v u * lorentz gamma (e - w u)].
Proof. exact dark. Qed.
Print Assumptions C185_dark_refuted.
Theorem C185_no_energies : forall (F : realFieldType) (m : dma F) sel gamma,
  linearabs m None sel gamma = Err Base.RuntimeError.
Proof. exact linearabs_none. Qed.
Print Assumptions C185_no_energies.
(** The strength of the lowest states never exceeds the number of sites. *)
Theorem C185_partial_strength : forall (F : realFieldType) n (e : nat -> F) t w v ne,
  solves n e t w v -> (ne <= n)%N -> \sum_(u < ne) strength n v u <= n%:R.
Proof. exact part_strength. Qed.
Print Assumptions C185_partial_strength.

(** C186.  The chosen states are distinct and in range, the s states are those
    with weight 0.8 or more, and the two printed ratios lie between zero and
    one in this order. *)
Theorem C186_selection : forall (F : realFieldType) argsort (m : dma F) v gs ex r1 r2,
  evecs m = Some v -> excdipole1 m = None -> dipsortidx m = None ->
  (forall f, argsort_ok (nsite m) f (argsort f)) ->
  spdfselection argsort m = Ok (gs, ex, r1, r2) ->
  [/\ uniq (gs ++ ex), all (fun u => (u < nsite m)%N) (gs ++ ex), 0 <= r1, r1 <= r2 & r2 <= 1] /\
  forall u, (u < nsite m)%N -> (u \in gs) = (4%:R / 5%:R <= `| \sum_(j < nsite m) v j u * `|v j u| |).
Proof. exact selection. Qed.
Print Assumptions C186_selection.
Theorem C186_runs : forall (F : realFieldType) argsort (m : dma F) v,
  (0 < nsite m)%N -> evecs m = Some v -> excdipole1 m = None -> dipsortidx m = None ->
  exists r, spdfselection argsort m = Ok r.
Proof. exact selection_runs. Qed.
Print Assumptions C186_runs.
Theorem C186_empty : forall (F : realFieldType) argsort (m : dma F) v,
  evecs m = Some v -> nsite m = 0%N -> excdipole1 m = None -> dipsortidx m = None ->
  spdfselection argsort m = Err Base.ValueError.
Proof. exact selection_empty. Qed.
Print Assumptions C186_empty.
(** Localised states: both are chosen. *)
Example C186_ex (F : realFieldType) : exists gs ex r1 r2,
  spdfselection (@asort F 2) (Dma 2 2 0 1 1 (fun _ _ => 0) (Some (fun=> 0)) (Some (fun i j => (i == j)%:R)) None None None None) =
  Ok (gs, ex, r1, r2) /\ 0%N \in gs /\ 1%N \in gs.
Proof.
set m := Dma _ _ _ _ _ _ _ _ _ _ _ _.
have [[[[gs ex] r1] r2] h] := C186_runs (@asort F 2) (isT : (0 < nsite m)%N) erefl erefl erefl.
have [_ H] := C186_selection (erefl : evecs m = Some _) erefl erefl (fun f => asort_ok 2 f) h.
have le : (4%:R / 5%:R <= `|1 : F|) by rewrite normr1 ler_pdivr_mulr ?ltr0n // mul1r ler_nat.
exists gs, ex, r1, r2; split=> //; rewrite !H // !big_ord_recl !big_ord0 /= normr0 normr1 !mulr0 !mulr1 !addr0 ?add0r.
by split.
Qed.
