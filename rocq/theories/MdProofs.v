(** Proofs about the dynamics. *)
From Coq Require Import Field.
From mathcomp Require Import all_ssreflect all_algebra.
From Verif Require Import MdModel MdSpec.
From Verif Require Base.
Set Implicit Arguments.
Unset Strict Implicit.
Unset Printing Implicit Defensive.
Import GRing.Theory Num.Theory Order.TTheory.
Local Open Scope ring_scope.

Lemma rmapM_mkseq (A B : Type) (f : A -> Base.res B) (h : nat -> A) (g : nat -> B) n :
  (forall i, (i < n)%N -> f (h i) = Ok (g i)) -> Base.rmapM f (mkseq h n) = Ok (mkseq g n).
Proof.
rewrite /mkseq; move=> H.
suff: forall s, {subset s <= iota 0 n} -> Base.rmapM f [seq h i | i <- s] = Ok [seq g i | i <- s] by apply.
elim=> [//|i s IH] sub /=.
rewrite H /=; last by have := sub i (mem_head _ _); rewrite mem_iota.
by rewrite IH // => j js; apply: sub; rewrite inE js orbT.
Qed.

Lemma eq_mkseq_in (A : Type) (f g : nat -> A) n : (forall i, (i < n)%N -> f i = g i) -> mkseq f n = mkseq g n.
Proof.
move=> H; rewrite /mkseq; suff: forall s, {subset s <= iota 0 n} -> map f s = map g s by apply.
elim=> [//|i s IH] sub /=; congr cons.
  by apply: H; have := sub i (mem_head _ _); rewrite mem_iota.
by apply: IH => j js; apply: sub; rewrite inE js orbT.
Qed.

Lemma index_nth (A : Type) (d : A) (l : seq A) i : (i < size l)%N -> Base.index l i = Ok (nth d l i).
Proof. rewrite /Base.index; elim: l i => [//|a l IH] [//|i] /= hi; exact: IH. Qed.

(** field identities over an abstract field *)
Section AbsField.
Variables (K : Type) (z o : K) (add mul sub : K -> K -> K) (opp : K -> K)
  (div : K -> K -> K) (inv : K -> K).
Variable FT : field_theory z o add mul sub opp div inv (@eq K).
Add Field KFmd : FT.
Local Notation "x +! y" := (add x y) (at level 50, left associativity).
Local Notation "x -! y" := (sub x y) (at level 50, left associativity).
Local Notation "x *! y" := (mul x y) (at level 40, left associativity).
Local Notation "x /! y" := (div x y) (at level 40, left associativity).
Variables n2 : K.
Hypotheses (d2 : n2 = o +! o) (e2 : n2 <> z).
Lemma prod_nz a b : a <> z -> b <> z -> a *! b <> z.
Proof.
move=> ha hb E; apply: ha; have : a *! b *! inv b = z by rewrite E; field.
by move=> <-; field.
Qed.
Lemma abs_shadow m k dt x v : m <> z ->
  let h := inv n2 *! dt /! m in
  let v1 := v -! h *! (k *! x) in let x1 := x +! dt *! v1 in let v2 := v1 -! h *! (k *! x1) in
  m /! n2 *! (v2 *! v2) +! k /! n2 *! (o -! k *! (dt *! dt) /! (n2 *! n2 *! m)) *! (x1 *! x1) =
  m /! n2 *! (v *! v) +! k /! n2 *! (o -! k *! (dt *! dt) /! (n2 *! n2 *! m)) *! (x *! x).
Proof. move=> m0 h v1 x1 v2; rewrite /v2 /x1 /v1 /h d2; field; repeat split; rewrite -?d2; auto using prod_nz. Qed.
End AbsField.

Section Proofs.
Variable F : realFieldType.
Notation vec := 'rV[F]_3.
Notation mol := (mol F).
Notation atom := (atom F).
Notation driver := (driver F).
Implicit Types (ms : seq mol) (qm : driver) (dt : F).

Lemma positionsE ms : positions ms = mkseq (fun i => mkseq (fun k => apos (atom_of ms i k)) (natoms ms i)) (size ms).
Proof.
rewrite /positions -{1}(mkseq_nth (mol0 F) ms) /mkseq -map_comp.
apply: eq_map => i /=; rewrite /natoms /atom_of.
by rewrite -{1}(mkseq_nth (atom0 F) (atoms _)) /mkseq -map_comp.
Qed.

Lemma size_positions ms : size (positions ms) = size ms.
Proof. by rewrite size_map. Qed.
Lemma nth_positions ms i : (i < size ms)%N ->
  nth [::] (positions ms) i = mkseq (fun k => apos (atom_of ms i k)) (natoms ms i).
Proof. by move=> hi; rewrite positionsE nth_mkseq. Qed.
Lemma size_nth_positions ms i : (i < size ms)%N -> size (nth [::] (positions ms) i) = natoms ms i.
Proof. by move=> hi; rewrite nth_positions // size_mkseq. Qed.

(** the molecules after half a kick with forces f *)
Definition kicked dt ms (f : nat -> seq vec) : seq mol :=
  mkseq (fun i => Mol (mkseq (fun k => let a := atom_of ms i k in
    Atom (amass a) (apos a) (avel a + (2%:R^-1 * dt / amass a) *: nth 0 (f i) k)) (natoms ms i))
    (sforces (nth (mol0 F) ms i)) (mforces (nth (mol0 F) ms i))) (size ms).

Lemma kick_ok dt ms (f : nat -> seq vec) :
  (forall i, (i < size ms)%N -> (0 < size (sforces (nth (mol0 F) ms i)))%N /\
      nth None (sforces (nth (mol0 F) ms i)) 0 = Some (f i) /\ size (f i) = natoms ms i) ->
  next_velocity_many_molecule dt 0 ms = Ok (kicked dt ms f).
Proof.
move=> H; rewrite /next_velocity_many_molecule -{1}(mkseq_nth (mol0 F) ms).
apply: rmapM_mkseq => i hi; have [h0 [hn hs]] := H i hi.
rewrite /kick (index_nth None h0) /= hn hs /natoms eqxx; congr (Ok (Mol _ _ _)).
apply: (@eq_from_nth _ (atom0 F)).
  by rewrite size_map size_zip size_mkseq hs /natoms minnn.
move=> k; rewrite size_map size_zip hs /natoms minnn => hk.
rewrite (nth_map (atom0 F, 0)); last by rewrite size_zip hs /natoms minnn.
by rewrite nth_zip // ?hs // nth_mkseq.
Qed.

Definition drifted dt ms : seq mol :=
  mkseq (fun i => Mol (mkseq (fun k => let a := atom_of ms i k in
    Atom (amass a) (apos a + dt *: avel a) (avel a)) (natoms ms i))
    (sforces (nth (mol0 F) ms i)) (mforces (nth (mol0 F) ms i))) (size ms).
Lemma drift_ok dt ms : next_position dt ms = drifted dt ms.
Proof.
rewrite /next_position -{1}(mkseq_nth (mol0 F) ms) /mkseq -map_comp; apply: eq_map => i /=.
rewrite /drift /natoms /atom_of; congr Mol.
by rewrite -{1}(mkseq_nth (atom0 F) (atoms _)) /mkseq -map_comp.
Qed.

Lemma nth_zip_iota (A : Type) (d : A) (s : seq A) : zip (iota 0 (size s)) s = mkseq (fun i => (i, nth d s i)) (size s).
Proof.
apply: (@eq_from_nth _ (0%N, d)); first by rewrite size_zip size_iota minnn size_mkseq.
move=> i; rewrite size_zip size_iota minnn => hi.
by rewrite nth_zip ?size_iota // nth_iota // nth_mkseq.
Qed.

Definition forced ns (qm : driver) ms : seq mol :=
  mkseq (fun i => Mol (atoms (nth (mol0 F) ms i)) (mkseq (fun s => Some (qm (positions ms) i s)) ns)
    (mforces (nth (mol0 F) ms i))) (size ms).
Lemma force_ok ns qm ms : (forall i, (i < size ms)%N -> size (sforces (nth (mol0 F) ms i)) = ns) ->
  calculate_force ns qm ms = Ok (forced ns qm ms).
Proof.
move=> H; rewrite /calculate_force (nth_zip_iota (mol0 F)).
apply: rmapM_mkseq => i hi; rewrite /assign_forces /= H // leqnn.
by rewrite drop_oversize ?H // cats0.
Qed.

Lemma copy_loop_ok (m : mol) js acc :
  (forall j, j \in js -> exists f, Base.index (sforces m) j = Ok (Some f)) ->
  exists f, copy_loop m js acc = Ok f.
Proof.
elim: js acc => [|j js IH] acc H /=; first by exists acc.
have [f ->] := H j (mem_head _ _); rewrite /=.
by apply: IH => i hi; apply: H; rewrite inE hi orbT.
Qed.

Lemma copy_ok ms : (forall i, (i < size ms)%N ->
    forall s, (s < size (sforces (nth (mol0 F) ms i)))%N -> exists f, nth None (sforces (nth (mol0 F) ms i)) s = Some f) ->
  exists g : nat -> option (seq vec), copy_forces ms ms =
   Ok (mkseq (fun i => Mol (atoms (nth (mol0 F) ms i)) (sforces (nth (mol0 F) ms i)) (g i)) (size ms)).
Proof.
elim: ms => [|m ms IH] H; first by exists (fun _ => None).
have [|g Hg] := IH; first by move=> i hi; exact: (H i.+1).
have [|f Hf] := @copy_loop_ok m (iota 0 (size (sforces m))) (mforces m).
  move=> j; rewrite mem_iota add0n => /andP[_ hj].
  by have [f hf] := H 0%N isT j hj; exists f; rewrite (index_nth None hj) hf.
exists (fun i => if i is i'.+1 then g i' else f).
rewrite /= /copy_forces1 Hf /= Hg /=; congr Ok.
by rewrite /mkseq /= (iotaDl 1 0) -map_comp.
Qed.

(** what one step computes *)
Definition mid dt qm ms : seq mol := drifted dt (kicked dt ms (fun i => qm (positions ms) i 0%N)).
Lemma size_mid dt qm ms : size (mid dt qm ms) = size ms.
Proof. by rewrite !size_mkseq. Qed.
Lemma natoms_kicked dt ms f i : (i < size ms)%N -> natoms (kicked dt ms f) i = natoms ms i.
Proof. by move=> hi; rewrite /natoms /kicked nth_mkseq // size_mkseq. Qed.
Lemma natoms_drifted dt ms i : (i < size ms)%N -> natoms (drifted dt ms) i = natoms ms i.
Proof. by move=> hi; rewrite /natoms /drifted nth_mkseq // size_mkseq. Qed.
Lemma atom_kicked dt ms f i k : (i < size ms)%N -> (k < natoms ms i)%N ->
  atom_of (kicked dt ms f) i k = let a := atom_of ms i k in
    Atom (amass a) (apos a) (avel a + (2%:R^-1 * dt / amass a) *: nth 0 (f i) k).
Proof. by move=> hi hk; rewrite {1}/atom_of /kicked nth_mkseq // nth_mkseq. Qed.
Lemma atom_drifted dt ms i k : (i < size ms)%N -> (k < natoms ms i)%N ->
  atom_of (drifted dt ms) i k = let a := atom_of ms i k in Atom (amass a) (apos a + dt *: avel a) (avel a).
Proof. by move=> hi hk; rewrite {1}/atom_of /drifted nth_mkseq // nth_mkseq. Qed.
Lemma natoms_mid dt qm ms i : (i < size ms)%N -> natoms (mid dt qm ms) i = natoms ms i.
Proof. by move=> hi; rewrite natoms_drifted ?size_mkseq // natoms_kicked. Qed.
Lemma atom_mid dt qm ms i k : (i < size ms)%N -> (k < natoms ms i)%N ->
  atom_of (mid dt qm ms) i k = let a := atom_of ms i k in
    let v := avel a + (2%:R^-1 * dt / amass a) *: nth 0 (qm (positions ms) i 0%N) k in
    Atom (amass a) (apos a + dt *: v) v.
Proof. by move=> hi hk; rewrite atom_drifted ?size_mkseq ?natoms_kicked // atom_kicked. Qed.

Definition stepped dt ns qm ms (g : nat -> option (seq vec)) : seq mol :=
  let x' := positions (mid dt qm ms) in
  mkseq (fun i => Mol (mkseq (fun k => let a := atom_of (mid dt qm ms) i k in
      Atom (amass a) (apos a) (avel a + (2%:R^-1 * dt / amass a) *: nth 0 (qm x' i 0%N) k)) (natoms ms i))
    (mkseq (fun s => Some (qm x' i s)) ns) (g i)) (size ms).

Lemma step_ok dt st ns qm ms : driver_shaped qm -> fresh ns qm ms ->
  exists g, md_step dt st ns qm ms = Ok (stepped dt ns qm ms g).
Proof.
move=> sh [ns0 fr]; rewrite /md_step.
rewrite (@kick_ok dt ms (fun i => qm (positions ms) i 0%N)); last first.
  move=> i hi; have [hs hf] := fr i hi; rewrite hs; split=> //; split; first exact: hf.
  by rewrite sh ?size_positions // size_nth_positions.
rewrite /= drift_ok -/(mid dt qm ms).
have sz i : (i < size (mid dt qm ms))%N -> size (sforces (nth (mol0 F) (mid dt qm ms) i)) = ns.
  rewrite size_mid => hi; rewrite /mid /drifted nth_mkseq ?size_mkseq //= /kicked nth_mkseq //=.
  by have [] := fr i hi.
rewrite force_ok //=; set m2 := forced _ _ _.
have sz2 : size m2 = size ms by rewrite size_mkseq size_mid.
have n2 i : (i < size ms)%N -> nth (mol0 F) m2 i = Mol (atoms (nth (mol0 F) (mid dt qm ms) i))
    (mkseq (fun s => Some (qm (positions (mid dt qm ms)) i s)) ns) (mforces (nth (mol0 F) (mid dt qm ms) i)).
  by move=> hi; rewrite /m2 /forced nth_mkseq // size_mid.
have [|g Hg] := @copy_ok m2.
  move=> i; rewrite sz2 => hi s; rewrite n2 //= size_mkseq => hs; rewrite nth_mkseq //.
  by eexists.
rewrite Hg /= sz2; set m3 := mkseq _ _.
have sz3 : size m3 = size ms by rewrite size_mkseq.
have n3 i : (i < size ms)%N -> nth (mol0 F) m3 i = Mol (atoms (nth (mol0 F) (mid dt qm ms) i))
    (mkseq (fun s => Some (qm (positions (mid dt qm ms)) i s)) ns) (g i).
  by move=> hi; rewrite /m3 nth_mkseq // n2.
exists g; rewrite (@kick_ok dt m3 (fun i => qm (positions (mid dt qm ms)) i 0%N)).
  congr Ok; rewrite /kicked /stepped sz3; apply: eq_mkseq_in => i hi.
  rewrite n3 //=; congr Mol.
  have -> : natoms m3 i = natoms ms i by rewrite -(natoms_mid dt qm hi) /natoms n3.
  apply: eq_mkseq_in => k hk.
  by have -> : atom_of m3 i k = atom_of (mid dt qm ms) i k by rewrite /atom_of n3.
move=> i; rewrite sz3 => hi; rewrite n3 //= size_mkseq nth_mkseq //; split=> //; split=> //.
rewrite sh ?size_positions ?size_mid // size_nth_positions ?size_mid //.
by rewrite /natoms n3.
Qed.

Lemma size_stepped dt ns qm ms g : size (stepped dt ns qm ms g) = size ms.
Proof. by rewrite size_mkseq. Qed.
Lemma natoms_stepped dt ns qm ms g i : (i < size ms)%N -> natoms (stepped dt ns qm ms g) i = natoms ms i.
Proof. by move=> hi; rewrite /natoms /stepped nth_mkseq // size_mkseq. Qed.
Lemma atom_stepped dt ns qm ms g i k : (i < size ms)%N -> (k < natoms ms i)%N ->
  atom_of (stepped dt ns qm ms g) i k = let a := atom_of (mid dt qm ms) i k in
      Atom (amass a) (apos a) (avel a + (2%:R^-1 * dt / amass a) *: nth 0 (qm (positions (mid dt qm ms)) i 0%N) k).
Proof. by move=> hi hk; rewrite {1}/atom_of /stepped nth_mkseq // nth_mkseq. Qed.
Lemma positions_stepped dt ns qm ms g : positions (stepped dt ns qm ms g) = positions (mid dt qm ms).
Proof.
rewrite !positionsE size_stepped size_mid; apply: eq_mkseq_in => i hi.
rewrite natoms_stepped // natoms_mid //; apply: eq_mkseq_in => k hk.
by rewrite atom_stepped.
Qed.

Lemma half_scale (x : F) : 2%:R^-1 * x = x / 2%:R. Proof. by rewrite mulrC. Qed.

Lemma fresh_stepped dt ns qm ms g : fresh ns qm ms -> fresh ns qm (stepped dt ns qm ms g).
Proof.
case=> ns0 _; split=> // i; rewrite size_stepped => hi.
rewrite positions_stepped /stepped nth_mkseq //= size_mkseq; split=> // s hs; by rewrite nth_mkseq.
Qed.

Lemma verlet_stepped dt ns qm ms g : verlet 0 dt qm ms (stepped dt ns qm ms g).
Proof.
split; first exact: size_stepped.
move=> i hi; split; first exact: natoms_stepped.
move=> k hk /=; rewrite /accel positions_stepped atom_stepped // atom_mid //=.
have h2 : 2%:R != 0 :> F by rewrite pnatr_eq0.
split=> //.
  rewrite scalerDr !scalerA addrA; congr (_ + _ *: _).
  by rewrite expr2 half_scale; rewrite !mulrA; congr (_ / _); rewrite mulrAC.
rewrite !scalerDr !scalerA addrA half_scale.
by [].
Qed.

Theorem step_verlet dt st ns qm ms : driver_shaped qm -> fresh ns qm ms ->
  exists ms', [/\ md_step dt st ns qm ms = Ok ms', fresh ns qm ms' & verlet 0 dt qm ms ms'].
Proof.
move=> sh fr; have [g Hg] := step_ok dt st sh fr.
exists (stepped dt ns qm ms g); split=> //; [exact: fresh_stepped|exact: verlet_stepped].
Qed.

(** ** Reversibility *)
Lemma size_reversed ms : size (reversed ms) = size ms.
Proof. by rewrite size_map. Qed.
Lemma nth_reversed ms i : (i < size ms)%N -> nth (mol0 F) (reversed ms) i =
  let m := nth (mol0 F) ms i in Mol [seq reversed_atom a | a <- atoms m] (sforces m) (mforces m).
Proof. by move=> hi; rewrite (nth_map (mol0 F)). Qed.
Lemma natoms_reversed ms i : (i < size ms)%N -> natoms (reversed ms) i = natoms ms i.
Proof. by move=> hi; rewrite /natoms nth_reversed //= size_map. Qed.
Lemma atom_reversed ms i k : (i < size ms)%N -> (k < natoms ms i)%N ->
  atom_of (reversed ms) i k = reversed_atom (atom_of ms i k).
Proof. by move=> hi hk; rewrite /atom_of nth_reversed //= (nth_map (atom0 F)). Qed.
Lemma positions_reversed ms : positions (reversed ms) = positions ms.
Proof.
rewrite !positionsE size_reversed; apply: eq_mkseq_in => i hi; rewrite natoms_reversed //.
by apply: eq_mkseq_in => k hk; rewrite atom_reversed.
Qed.
Lemma fresh_reversed ns qm ms : fresh ns qm ms -> fresh ns qm (reversed ms).
Proof.
case=> ns0 fr; split=> // i; rewrite size_reversed => hi.
by rewrite nth_reversed //= positions_reversed; exact: fr.
Qed.

Lemma same_stateP ms ms' : size ms = size ms' ->
  (forall i, (i < size ms)%N -> natoms ms i = natoms ms' i) ->
  (forall i k, (i < size ms)%N -> (k < natoms ms i)%N -> atom_of ms i k = atom_of ms' i k) ->
  (forall i, (i < size ms)%N -> sforces (nth (mol0 F) ms i) = sforces (nth (mol0 F) ms' i)) ->
  same_state ms ms'.
Proof.
move=> hs hn ha hf; rewrite /same_state.
rewrite -{1}(mkseq_nth (mol0 F) ms) -{1}(mkseq_nth (mol0 F) ms') -hs /mkseq -!map_comp.
apply: eq_mkseq_in => i hi /=; congr (_, _); last exact: hf.
apply: (@eq_from_nth _ (atom0 F)); first exact: hn.
by move=> k hk; exact: ha.
Qed.

Lemma positions_back dt ns qm ms g : positions (mid dt qm (reversed (stepped dt ns qm ms g))) = positions ms.
Proof.
rewrite !positionsE size_mid size_reversed size_stepped; apply: eq_mkseq_in => i hi.
rewrite natoms_mid ?size_reversed ?size_stepped // natoms_reversed ?size_stepped // natoms_stepped //.
apply: eq_mkseq_in => k hk.
rewrite atom_mid ?size_reversed ?size_stepped ?natoms_reversed ?natoms_stepped ?size_stepped //=.
rewrite positions_reversed positions_stepped atom_reversed ?size_stepped ?natoms_stepped //= atom_stepped //= atom_mid //=.
by rewrite opprD addrNK scalerN addrK.
Qed.

Theorem step_reversible dt st ns qm ms ms' : driver_shaped qm -> fresh ns qm ms ->
  md_step dt st ns qm ms = Ok ms' ->
  exists back, md_step dt st ns qm (reversed ms') = Ok back /\ same_state back (reversed ms).
Proof.
move=> sh fr; have [g ->] := step_ok dt st sh fr; case=> <-.
have fr' := fresh_reversed (fresh_stepped dt g fr).
have [g' ->] := step_ok dt st sh fr'; eexists; split; first by [].
apply: same_stateP.
- by rewrite size_stepped !size_reversed size_stepped.
- move=> i; rewrite size_stepped size_reversed size_stepped => hi.
  by rewrite natoms_stepped ?size_reversed ?size_stepped // !natoms_reversed ?size_stepped // natoms_stepped.
- move=> i k; rewrite size_stepped size_reversed size_stepped => hi.
  rewrite natoms_stepped ?size_reversed ?size_stepped // natoms_reversed ?size_stepped // natoms_stepped // => hk.
  rewrite atom_stepped ?size_reversed ?size_stepped ?natoms_reversed ?natoms_stepped ?size_stepped //.
  rewrite positions_back atom_mid ?size_reversed ?size_stepped ?natoms_reversed ?natoms_stepped ?size_stepped //=.
  rewrite positions_reversed positions_stepped !atom_reversed ?size_stepped ?natoms_stepped //= atom_stepped //= atom_mid //=.
  rewrite /reversed_atom; congr Atom.
    by rewrite opprD addrNK scalerN addrK.
  by rewrite opprD addrNK opprD addrNK.
- move=> i; rewrite size_stepped size_reversed size_stepped => hi.
  rewrite nth_reversed //= /stepped nth_mkseq ?size_reversed ?size_mkseq //=.
  have [ns0 fr0] := fr; have [hs hf] := fr0 i hi.
  rewrite -/(stepped dt ns qm ms g) positions_back.
  apply: (@eq_from_nth _ None); first by rewrite size_mkseq hs.
  by move=> s; rewrite size_mkseq => hs'; rewrite nth_mkseq // hf.
Qed.

(** ** Conservation laws *)
Lemma sum_positions (V : zmodType) ms (G : nat -> nat -> V) :
  \sum_(i < size (positions ms)) \sum_(k < size (nth [::] (positions ms) i)) G i k =
  \sum_(i < size ms) \sum_(k < natoms ms i) G i k.
Proof.
rewrite size_positions; apply: eq_bigr => i _; by rewrite size_nth_positions.
Qed.

Lemma net_force qm ms : no_net_force qm 0 ->
  \sum_(i < size ms) \sum_(k < natoms ms i) nth 0 (qm (positions ms) i 0%N) k = 0.
Proof. by move=> H; rewrite -(sum_positions ms (fun i k => nth 0 (qm (positions ms) i 0%N) k)) H. Qed.

Lemma net_force_mid dt qm ms : no_net_force qm 0 ->
  \sum_(i < size ms) \sum_(k < natoms ms i) nth 0 (qm (positions (mid dt qm ms)) i 0%N) k = 0.
Proof.
move=> H; rewrite -[RHS](net_force (mid dt qm ms) H) size_mid.
by apply: eq_bigr => i _; rewrite natoms_mid.
Qed.

Lemma kick_mass (m c : F) (f : vec) : 0 < m -> m *: ((c / m) *: f) = c *: f.
Proof. by move=> m0; rewrite scalerA mulrC divfK // gt_eqF. Qed.

Theorem step_momentum dt st ns qm ms ms' : driver_shaped qm -> fresh ns qm ms -> heavy ms ->
  no_net_force qm 0 -> md_step dt st ns qm ms = Ok ms' -> momentum ms' = momentum ms.
Proof.
move=> sh fr hv nf; have [g ->] := step_ok dt st sh fr; case=> <-.
rewrite /momentum size_stepped.
transitivity (\sum_(i < size ms) \sum_(k < natoms ms i) (amass (atom_of ms i k) *: avel (atom_of ms i k)
   + (2%:R^-1 * dt) *: nth 0 (qm (positions ms) i 0%N) k + (2%:R^-1 * dt) *: nth 0 (qm (positions (mid dt qm ms)) i 0%N) k)).
  apply: eq_bigr => i _; rewrite natoms_stepped //; apply: eq_bigr => k _.
  rewrite atom_stepped // atom_mid //= !scalerDr !kick_mass //; exact: hv.
under eq_bigr do rewrite !big_split /= -!scaler_sumr.
rewrite !big_split /= -!scaler_sumr net_force // net_force_mid // !scaler0 !addr0.
by [].
Qed.

Lemma wedgeDr (x p q : vec) : wedge x (p + q) = wedge x p + wedge x q.
Proof. by rewrite /wedge mulmxDr linearD /= mulmxDl opprD addrACA. Qed.
Lemma wedgeDl (x y p : vec) : wedge (x + y) p = wedge x p + wedge y p.
Proof. by rewrite /wedge linearD /= mulmxDl mulmxDr opprD addrACA. Qed.
Lemma wedgeZr a (x p : vec) : wedge x (a *: p) = a *: wedge x p.
Proof. by rewrite /wedge -scalemxAr linearZ /= -scalemxAl -scalerBr. Qed.
Lemma wedgeZl a (x p : vec) : wedge (a *: x) p = a *: wedge x p.
Proof. by rewrite /wedge linearZ /= -scalemxAl -scalemxAr -scalerBr. Qed.
Lemma wedgexx (x : vec) : wedge x x = 0. Proof. exact: subrr. Qed.

Lemma torque qm ms : no_torque qm 0 ->
  \sum_(i < size ms) \sum_(k < natoms ms i) wedge (apos (atom_of ms i k)) (nth 0 (qm (positions ms) i 0%N) k) = 0.
Proof.
move=> H; rewrite -[RHS](H (positions ms)) size_positions; apply: eq_bigr => i _.
rewrite size_nth_positions //; apply: eq_bigr => k _; by rewrite nth_positions // nth_mkseq.
Qed.

Theorem step_angular dt st ns qm ms ms' : driver_shaped qm -> fresh ns qm ms -> heavy ms ->
  no_torque qm 0 -> md_step dt st ns qm ms = Ok ms' -> angular ms' = angular ms.
Proof.
move=> sh fr hv nt; have [g ->] := step_ok dt st sh fr; case=> <-.
have T1 := torque ms nt.
have T2 : \sum_(i < size ms) \sum_(k < natoms ms i)
    wedge (apos (atom_of (mid dt qm ms) i k)) (nth 0 (qm (positions (mid dt qm ms)) i 0%N) k) = 0.
  rewrite -[RHS](torque (mid dt qm ms) nt) size_mid; apply: eq_bigr => i _; by rewrite natoms_mid.
rewrite /angular size_stepped.
transitivity (\sum_(i < size ms) \sum_(k < natoms ms i) (wedge (apos (atom_of ms i k)) (amass (atom_of ms i k) *: avel (atom_of ms i k))
   + (2%:R^-1 * dt) *: wedge (apos (atom_of ms i k)) (nth 0 (qm (positions ms) i 0%N) k)
   + (2%:R^-1 * dt) *: wedge (apos (atom_of (mid dt qm ms) i k)) (nth 0 (qm (positions (mid dt qm ms)) i 0%N) k))); last first.
  under eq_bigr do rewrite 2!big_split /= -!scaler_sumr.
  by rewrite 2!big_split /= -!scaler_sumr T1 T2 !scaler0 !addr0.
apply: eq_bigr => i _; rewrite natoms_stepped //; apply: eq_bigr => k _.
have m0 := hv i k (ltn_ord i) (ltn_ord k).
rewrite atom_stepped // atom_mid //=; set a := atom_of ms i k; set f := nth _ _ _; set f' := nth _ _ _.
rewrite -/a in m0.
set v := avel a + _ *: f.
have -> : amass a *: (v + (2%:R^-1 * dt / amass a) *: f') = amass a *: v + (2%:R^-1 * dt) *: f'.
  by rewrite scalerDr kick_mass.
rewrite wedgeDr [wedge _ (_ *: f')]wedgeZr [wedge _ (amass a *: v)]wedgeDl; congr (_ + _).
rewrite wedgeZl [wedge v _]wedgeZr wedgexx !scaler0 addr0.
by rewrite /v scalerDr kick_mass // wedgeDr [wedge _ (_ *: f)]wedgeZr.
Qed.

(** ** Springs *)
Lemma springs_shaped (k : F) : driver_shaped (springs k).
Proof. by move=> x i s hi; rewrite size_map. Qed.
Lemma springs_nth k ms i j : (i < size ms)%N -> (j < natoms ms i)%N ->
  nth 0 (springs k (positions ms) i 0%N) j = - (k *: apos (atom_of ms i j)).
Proof.
move=> hi hj; rewrite /springs (nth_map 0) ?size_nth_positions // nth_positions // nth_mkseq //.
Qed.

(** the quantity the integrator conserves exactly *)
Definition shadow (k dt : F) (a : atom) : F :=
  amass a / 2%:R * norm2 (avel a) + k / 2%:R * (1 - k * dt ^+ 2 / (4%:R * amass a)) * norm2 (apos a).

Lemma shadow_component (m k dt x v : F) : m != 0 ->
  let h := 2%:R^-1 * dt / m in
  let v1 := v - h * (k * x) in let x1 := x + dt * v1 in let v2 := v1 - h * (k * x1) in
  m / 2%:R * v2 ^+ 2 + k / 2%:R * (1 - k * dt ^+ 2 / (4%:R * m)) * x1 ^+ 2 =
  m / 2%:R * v ^+ 2 + k / 2%:R * (1 - k * dt ^+ 2 / (4%:R * m)) * x ^+ 2.
Proof.
move=> m0 /=; have q4 : (4%:R : F) = 2%:R * 2%:R by rewrite -natrM.
have FT : field_theory (0 : F) 1 (fun x y => x + y) (fun x y => x * y) (fun x y => x - y)
  (fun x => - x) (fun x y => x / y) (fun x => x^-1) eq.
  split; [split| | |].
  - exact: add0r. - exact: addrC. - exact: addrA. - exact: mul1r. - exact: mulrC. - exact: mulrA.
  - exact: mulrDl. - by []. - exact: subrr. - exact/eqP/oner_neq0. - by [].
  - by move=> q /eqP ?; rewrite mulVf.
have d2 : (2%:R : F) = 1 + 1 by rewrite -(natrD _ 1 1).
have e2 : (2%:R : F) <> 0 by apply/eqP; rewrite pnatr_eq0.
by rewrite !expr2 q4; apply: (abs_shadow FT d2 e2); exact/eqP.
Qed.

Lemma norm2E (m k dt : F) (x v x' v' : vec) : (forall c, m / 2%:R * v' 0 c ^+ 2 + k * x' 0 c ^+ 2 =
    m / 2%:R * v 0 c ^+ 2 + k * x 0 c ^+ 2) ->
  m / 2%:R * norm2 v' + k * norm2 x' = m / 2%:R * norm2 v + k * norm2 x.
Proof. by move=> H; rewrite /norm2 !mulr_sumr -!big_split /=; apply: eq_bigr => c _. Qed.

Lemma shadow_step k dt ns ms g i j : (i < size ms)%N -> (j < natoms ms i)%N -> amass (atom_of ms i j) != 0 ->
  shadow k dt (atom_of (stepped dt ns (springs k) ms g) i j) = shadow k dt (atom_of ms i j).
Proof.
move=> hi hj m0; rewrite atom_stepped // /shadow.
have E : nth 0 (springs k (positions (mid dt (springs k) ms)) i 0%N) j = - (k *: apos (atom_of (mid dt (springs k) ms) i j)).
  by rewrite springs_nth ?size_mid ?natoms_mid.
rewrite E atom_mid //= springs_nth //; set a := atom_of ms i j.
apply: norm2E => // c; rewrite !mxE.
by have := @shadow_component (amass a) k dt (apos a 0 c) (avel a 0 c) m0; rewrite /= !mulrN.
Qed.

Lemma run_springs n k dt st ns ms : fresh ns (springs k) ms -> heavy ms ->
  exists ms', [/\ md_run n dt st ns (springs k) ms = Ok ms', fresh ns (springs k) ms', size ms' = size ms &
    forall i, (i < size ms)%N -> natoms ms' i = natoms ms i /\ forall j, (j < natoms ms i)%N ->
      amass (atom_of ms' i j) = amass (atom_of ms i j) /\
      shadow k dt (atom_of ms' i j) = shadow k dt (atom_of ms i j)].
Proof.
elim: n ms => [|n IH] ms fr hv /=; first by exists ms.
have [g ->] := step_ok dt st (springs_shaped k) fr; rewrite /=.
have hv' : heavy (stepped dt ns (springs k) ms g).
  move=> i j; rewrite size_stepped => hi; rewrite natoms_stepped // => hj.
  by rewrite atom_stepped // atom_mid //=; exact: hv.
have [ms' [-> fr' hs H]] := IH _ (fresh_stepped dt g fr) hv'.
exists ms'; split=> //; first by rewrite hs size_stepped.
rewrite size_stepped in H; move=> i hi; have [h1 h2] := H i hi.
rewrite natoms_stepped // in h1 h2; split=> // j hj; have [-> ->] := h2 j hj.
rewrite shadow_step // ?gt_eqF ?hv //; split=> //.
by rewrite atom_stepped // atom_mid.
Qed.

Lemma norm2_ge0 v : 0 <= norm2 (v : vec).
Proof. by apply: sumr_ge0 => c _; exact: sqr_ge0. Qed.

Lemma energy_shadow k dt a : 0 < amass a -> 0 <= k -> k * dt ^+ 2 < 4%:R * amass a ->
  (1 - k * dt ^+ 2 / (4%:R * amass a)) * spring_energy k a <= shadow k dt a <= spring_energy k a.
Proof.
move=> m0 k0 hk; rewrite /shadow /spring_energy; set q := k * dt ^+ 2 / _.
have q0 : 0 <= q.
  by apply: divr_ge0; apply: mulr_ge0 => //; [exact: sqr_ge0|exact: ler0n|exact: ltW].
have A : 0 <= amass a / 2%:R * norm2 (avel a) 
  by apply: mulr_ge0; [apply: divr_ge0; [exact: ltW|exact: ler0n]|exact: norm2_ge0].
have B : 0 <= k / 2%:R * norm2 (apos a) 
  by apply: mulr_ge0; [apply: divr_ge0; [|exact: ler0n]|exact: norm2_ge0].
have -> : k / 2%:R * (1 - q) * norm2 (apos a) = (1 - q) * (k / 2%:R * norm2 (apos a)) by rewrite mulrCA mulrA.
apply/andP; split.
  rewrite mulrDr ler_add2r mulrBl mul1r ler_subl_addr ler_addl; exact: mulr_ge0.
by rewrite ler_add2l mulrBl mul1r ler_subl_addr ler_addl; exact: mulr_ge0.
Qed.

Theorem springs_energy n k dt st ns ms : 0 <= k -> fresh ns (springs k) ms -> heavy ms ->
  (forall i j, (i < size ms)%N -> (j < natoms ms i)%N -> k * dt ^+ 2 < 4%:R * amass (atom_of ms i j)) ->
  exists ms', md_run n dt st ns (springs k) ms = Ok ms' /\
    forall i j, (i < size ms)%N -> (j < natoms ms i)%N ->
    let a := atom_of ms i j in let q := k * dt ^+ 2 / (4%:R * amass a) in
    (1 - q) * spring_energy k a <= spring_energy k (atom_of ms' i j) <= spring_energy k a / (1 - q).
Proof.
move=> k0 fr hv hk; have [ms' [-> _ hs H]] := run_springs n dt st fr hv.
exists ms'; split=> // i j hi hj /=; have [_ h2] := H i hi; have [em es] := h2 j hj.
have m0 := hv i j hi hj; have hq := hk i j hi hj.
have /andP[a1 a2] := energy_shadow m0 k0 hq.
have m0' : 0 < amass (atom_of ms' i j) by rewrite em.
have hq' : k * dt ^+ 2 < 4%:R * amass (atom_of ms' i j) by rewrite em.
have /andP[b1 b2] := energy_shadow m0' k0 hq'.
rewrite es in b1 b2; rewrite em in b1.
have q1 : 0 < 1 - k * dt ^+ 2 / (4%:R * amass (atom_of ms i j)).
  by rewrite subr_gt0 ltr_pdivr_mulr ?mul1r // mulr_gt0 ?ltr0n.
apply/andP; split; first exact: le_trans a1 b2.
by rewrite ler_pdivl_mulr // mulrC; exact: le_trans b1 a2.
Qed.

(** ** Other surfaces, separate objects *)
Lemma step_ignores_init_state dt st st' ns qm ms : md_step dt st ns qm ms = md_step dt st' ns qm ms.
Proof. by []. Qed.

Lemma kick_sforces dt cs m m' : kick dt cs m = Ok m' -> sforces m' = sforces m.
Proof. by rewrite /kick; case: Base.index => //= -[f|] //; case: ifP => // _ [<-]. Qed.
Lemma velocity_sforces dt cs ms ms' : next_velocity_many_molecule dt cs ms = Ok ms' -> map (@sforces F) ms' = map (@sforces F) ms.
Proof.
elim: ms ms' => [|m ms IH] ms'; first by case=> <-.
rewrite {1}/next_velocity_many_molecule /=; case E: (kick dt cs m) => [m'|] //=; case E2: (Base.rmapM (kick dt cs) ms) => [l|] //= [<-] /=.
by rewrite (kick_sforces E) (IH _ E2).
Qed.
Lemma position_sforces dt ms : map (@sforces F) (next_position dt ms) = map (@sforces F) ms.
Proof. by rewrite /next_position -map_comp. Qed.
Lemma copy_sforces d s d' : copy_forces d s = Ok d' -> map (@sforces F) d' = map (@sforces F) d.
Proof.
elim: d s d' => [|m d IH] [|s r] d' //=; try by case=> <-.
rewrite /copy_forces1; case: (copy_loop _ _ _) => [f|] //=; case E: (copy_forces d r) => [l|] //= [<-] /=.
by rewrite (IH _ _ E).
Qed.

Theorem separate_stale dt st ns qm ms qms ms' qms' :
  md_step_separate dt st ns qm ms qms = Ok (ms', qms') -> map (@sforces F) ms' = map (@sforces F) ms.
Proof.
rewrite /md_step_separate; case E1: (next_velocity_many_molecule dt 0 ms) => [m1|] //=.
case: (set_all_coords _ _) => [q1|] //=; case: (calculate_force _ _ _) => [q2|] //=.
case E3: (copy_forces _ _) => [m3|] //=; case E4: (next_velocity_many_molecule _ _ m3) => [m4|] //= [<- _].
by rewrite (velocity_sforces E4) (copy_sforces E3) position_sforces (velocity_sforces E1).
Qed.

Theorem separate_unset dt st ns qm m ms qms : nth None (sforces m) 0 = None -> (0 < size (sforces m))%N ->
  md_step_separate dt st ns qm (m :: ms) qms = Err Base.AttributeError.
Proof.
move=> h0 hs; rewrite /md_step_separate /next_velocity_many_molecule /= /kick.
by rewrite (index_nth None hs) h0.
Qed.

(** ** The kernel *)
Theorem kernel_fails r od qstep nsteps force (a : molarg F) : (0 < nsteps - first_step r qstep) ->
  exists e, kernel r od qstep nsteps force a = Err e.
Proof.
rewrite /kernel; case: (kernel_prologue r od a) => [[]|e] /=; last by exists e.
case: force => [[]|e] /=; last by exists e.
by case: (nsteps - _) => [[|k]|k] //= _; exists Base.AttributeError.
Qed.

Theorem kernel_resumed (qstep nsteps : int) (a : molarg F) :
  kernel RAppend true qstep nsteps (Ok tt) a = (if nsteps <= qstep + 1 then Ok a else Err Base.AttributeError) /\
  kernel RAppend false qstep nsteps (Ok tt) a = Err Base.ValueError /\
  forall od, kernel RWrite od qstep nsteps (Ok tt) a = (if nsteps <= 0 then Ok a else Err Base.AttributeError).
Proof.
have h (d : int) : kernel_loop (match d with Posz k => k | Negz _ => 0%N end) a = if d <= 0 then Ok a else Err Base.AttributeError.
  by case: d => [[|k]|k].
by do ! split; move=> *; rewrite /kernel /= h ?subr0 ?subr_le0.
Qed.

Theorem kernel_fresh_fails od qstep nsteps force (a : molarg F) : (if a is MList [::] then False else True) ->
  exists e, kernel RNone od qstep nsteps force a = Err e.
Proof. by case: a => [[|m ms]|m] //= _; eexists. Qed.

Theorem temperature_fails (a : molarg F) : exists e, temperature a = Err e.
Proof. by case: a => [[|m ms]|m]; eexists. Qed.

(** ** Molecule *)
Theorem veloc_ignored natm kw i c : m_veloc (molecule_init natm kw : molecule F) i c = 0.
Proof. by []. Qed.

Theorem move_three dt (x v : nat -> nat -> F) : exists x', move dt 3 x v = Ok x' /\ forall i c, x' i c = x i c + dt * v i c.
Proof. by eexists. Qed.
Theorem move_bad dt ndim (x v : nat -> nat -> F) : ndim != 3%N -> ndim != 1%N -> move dt ndim x v = Err Base.ValueError.
Proof. by rewrite /move => /negbTE-> /negbTE->. Qed.
Theorem move_one dt (x v : nat -> nat -> F) : exists x', move dt 1 x v = Ok x' /\ forall i c, x' i c = x i c + dt * v i 0%N.
Proof. by eexists. Qed.

Theorem move_one_all dt (x v : nat -> nat -> F) i c : dt * v i 0%N != 0 -> exists x', move dt 1 x v = Ok x' /\ x' i c != x i c.
Proof. by move=> h; eexists; split; first by []; rewrite -subr_eq0 addrC addKr. Qed.

Lemma ekin_term (m : F) d (v : nat -> F) : 0 <= m -> 0 <= 2%:R^-1 * m * \sum_(c < d) v c ^+ 2.
Proof.
by move=> m0; rewrite mulr_ge0 ?mulr_ge0 ?invr_ge0 ?ler0n //; apply: sumr_ge0 => c _; exact: sqr_ge0.
Qed.
Theorem ekin_ge0 n d (m : nat -> F) v : (forall i, (i < n)%N -> 0 <= m i) -> 0 <= get_ekin n d m v.
Proof. by move=> H; apply: sumr_ge0 => i _; apply: ekin_term; exact: H. Qed.
Theorem ekin_eq0 n d (m : nat -> F) v : (forall i, (i < n)%N -> 0 < m i) ->
  (get_ekin n d m v = 0 <-> forall i c, (i < n)%N -> (c < d)%N -> v i c = 0).
Proof.
move=> H; split; last first.
  move=> H0; apply: big1 => i _; rewrite big1 ?mulr0 // => c _; by rewrite H0 ?expr0n.
move/eqP; rewrite psumr_eq0; last by move=> i _; apply: ekin_term; exact/ltW/H.
move=> /allP A i c hi hc; have := A (Ordinal hi) (mem_index_enum _); rewrite /= !mulf_eq0 invr_eq0 pnatr_eq0 /=.
rewrite (gt_eqF (H i hi)) /= psumr_eq0; last by move=> j _; exact: sqr_ge0.
by move=> /allP /(_ (Ordinal hc) (mem_index_enum _)); rewrite /= sqrf_eq0 => /eqP.
Qed.
Theorem ekin_scale n d (m : nat -> F) v a : get_ekin n d m (fun i c => a * v i c) = a ^+ 2 * get_ekin n d m v.
Proof.
rewrite /get_ekin mulr_sumr; apply: eq_bigr => i _; rewrite [RHS]mulrCA; congr (_ * _).
by rewrite mulr_sumr; apply: eq_bigr => c _; rewrite exprMn.
Qed.
(** the kinetic energy of the molecules is the sum of p . v / 2 *)
Theorem ekin_momentum n d (m : nat -> F) v :
  get_ekin n d m v = 2%:R^-1 * \sum_(i < n) \sum_(c < d) (m i * v i c) * v i c.
Proof.
rewrite /get_ekin mulr_sumr; apply: eq_bigr => i _; rewrite -mulrA; congr (_ * _).
by rewrite mulr_sumr; apply: eq_bigr => c _; rewrite expr2 mulrA.
Qed.

(** ** Surface hopping *)
Theorem mqc_init_fails (kw : option F) : mqc_init None kw = Err Base.AttributeError.
Proof. by []. Qed.

Section ElecP.
Variables (d n : nat) (ham : 'rV[F]_d -> 'M[F]_n) (v : 'rV[F]_d) (edt : F).
Hypothesis edt0 : edt != 0.
Lemma two0 : 2%:R != 0 :> F. Proof. by rewrite pnatr_eq0. Qed.
Lemma half_neq t : (t + edt / 2%:R == t) = false.
Proof. by rewrite -subr_eq0 addrC addKr mulf_eq0 invr_eq0 (negbTE two0) orbF (negbTE edt0). Qed.
Lemma halfD (t : F) : t + edt / 2%:R + edt / 2%:R = t + edt.
Proof. by rewrite -addrA -mulrDl -mulr2n -mulr_natr mulfK ?two0. Qed.

(** the first derivative of a step uses the stored Hamiltonian *)
Lemma rk4_st_stored s c : let x := cur_coords s in let t := cur_time s in
  let k1 := minus_i_H (cur_ham s) c in
  let k2 := minus_i_H (ham (x + (edt / 2%:R) *: v)) (axpy (edt / 2%:R) k1 c) in
  let k3 := minus_i_H (ham (x + (edt / 2%:R) *: v)) (axpy (edt / 2%:R) k2 c) in
  let k4 := minus_i_H (ham (x + edt *: v)) (axpy edt k3 c) in
  (rk4_st ham v edt s t c edt).2 = axpy (edt / 6%:R) (rk_sum k1 k2 k3 k4) c.
Proof.
move=> x t k1 k2 k3 k4; rewrite /rk4_st /get_coef_dot /refresh eqxx /=.
rewrite half_neq /= eqxx /= -halfD half_neq /= -/x -/t.
have X : x + (edt / 2%:R) *: v + (edt / 2%:R) *: v = x + edt *: v.
  by rewrite -addrA -scalerDl -mulrDl -mulr2n -mulr_natr mulfK ?two0.
by rewrite X.
Qed.

Lemma rk4_st_ok s c : let x := cur_coords s in let t := cur_time s in
  cur_ham s = ham x -> rk4_st ham v edt s t c edt =
  (Sh (t + edt) (x + edt *: v) (ham (x + edt *: v)),
   rk4_schroedinger (ham_line ham x v t) t edt c).
Proof.
move=> x t hx; rewrite /rk4_st /get_coef_dot /refresh eqxx /=.
rewrite half_neq /= eqxx /= -halfD half_neq /= -/x -/t.
have X : x + (edt / 2%:R) *: v + (edt / 2%:R) *: v = x + edt *: v.
  by rewrite -addrA -scalerDl -mulrDl -mulr2n -mulr_natr mulfK ?two0.
have L0 : ham_line ham x v t t = cur_ham s by rewrite /ham_line subrr scale0r addr0 hx.
have L1 : ham_line ham x v t (t + edt / 2%:R) = ham (x + (edt / 2%:R) *: v).
  by rewrite /ham_line (addrC t) addrK.
have L2 : ham_line ham x v t (t + edt) = ham (x + (edt / 2%:R) *: v + (edt / 2%:R) *: v).
  by rewrite /ham_line X (addrC t) addrK.
by rewrite /rk4_schroedinger L0 L1 L2 X ?halfD.
Qed.

Lemma propS M s c s1 c1 : rk4_st ham v edt s (cur_time s) c edt = (s1, c1) ->
  electronic_propagator ham v edt M.+1 s c = electronic_propagator ham v edt M s1 c1.
Proof. by move=> E; cbn [electronic_propagator]; rewrite E. Qed.

Theorem propagator_ok N s c : cur_ham s = ham (cur_coords s) ->
  electronic_propagator ham v edt N s c =
  (Sh (cur_time s + edt *+ N) (cur_coords s + (edt *+ N) *: v) (ham (cur_coords s + (edt *+ N) *: v)),
   rk4_run N (ham_line ham (cur_coords s) v (cur_time s)) (cur_time s) edt c).
Proof.
have gen : forall M s' c', cur_ham s' = ham (cur_coords s') ->
   forall x0 t0, cur_coords s' = x0 + (cur_time s' - t0) *: v ->
  electronic_propagator ham v edt M s' c' =
  (Sh (cur_time s' + edt *+ M) (cur_coords s' + (edt *+ M) *: v) (ham (cur_coords s' + (edt *+ M) *: v)),
   rk4_run M (ham_line ham x0 v t0) (cur_time s') edt c').
  elim=> [|M IH] s' c' h x0 t0 hx.
    by rewrite /= mulr0n scale0r !addr0 -h; case: s' {h hx}.
  rewrite (propS M (@rk4_st_ok s' c' h)).
  have H t : ham_line ham (cur_coords s') v (cur_time s') t = ham_line ham x0 v t0 t.
    rewrite /ham_line hx -addrA -scalerDl; congr (ham (_ + _ *: _)).
    by rewrite addrC subrKA.
  have -> : rk4_schroedinger (ham_line ham (cur_coords s') v (cur_time s')) (cur_time s') edt c' =
      rk4_schroedinger (ham_line ham x0 v t0) (cur_time s') edt c' by rewrite /rk4_schroedinger !H.
  set s1 := Sh _ _ _.
  have h1 : cur_ham s1 = ham (cur_coords s1) by [].
  have t1 : cur_time s1 = cur_time s' + edt by [].
  have x1 : cur_coords s1 = cur_coords s' + edt *: v by [].
  have hx1 : cur_coords s1 = x0 + (cur_time s1 - t0) *: v.
    by rewrite x1 t1 hx -[LHS]addrA -scalerDl; congr (_ + _ *: _); rewrite addrAC.
  rewrite (IH s1 _ h1 x0 t0 hx1) x1 t1.
  by congr (Sh _ _ _, _); rewrite -?addrA -?scalerDl -?mulrS.
move=> h; apply: gen => //; by rewrite subrr scale0r addr0.
Qed.
End ElecP.

End Proofs.

(** ** Witnesses *)
Section Witness.
Notation F := rat_realFieldType.
(** one atom at rest; the upper surface pushes it, the lower does not *)
Definition one_atom (ns : nat) (f : seq (option (seq 'rV[F]_3))) : seq (mol F) := [:: Mol [:: Atom 1 0 0] f None].
Definition push : driver F := fun x i s => [seq (if s == 0%N then 0 else const_mx 1) | _ <- nth [::] x i].
Lemma push_shaped : driver_shaped push. Proof. by move=> x i s _; rewrite size_map. Qed.
Definition two_surfaces := one_atom 2 [:: Some [:: 0]; Some [:: const_mx 1]].
Lemma two_fresh : fresh 2 push two_surfaces.
Proof. by split=> // -[|//] _; split=> // -[|[|]]. Qed.

Theorem surface_ignored : exists ms', md_step 1 1 2 push two_surfaces = Ok ms' /\ ~ verlet 1 1 push two_surfaces ms'.
Proof.
have [ms' [E _ V]] := step_verlet 1 1 push_shaped two_fresh.
exists ms'; split=> // -[_ V1]; have [_ V0] := V.
have [_ /(_ 0%N isT)[_ P0 _]] := V0 0%N isT; have [_ /(_ 0%N isT)[_ P1 _]] := V1 0%N isT.
rewrite P0 in P1; have := congr1 (fun m : 'rV[F]_3 => m 0 0) P1.
rewrite /accel /positions /push /= !mxE /= !mulr0 !addr0 add0r !mulr1 ?invr1 ?mulr1 expr1n => /eqP.
by rewrite eq_sym mulf_eq0 invr_eq0 oner_eq0 pnatr_eq0.
Qed.

(** a molecule with separate objects: its stored forces stay at the first
    value although the driver's forces change *)
Definition pull : driver F := springs (1 : F).
Definition moving (f : seq (option (seq 'rV[F]_3))) : seq (mol F) := [:: Mol [:: Atom 1 0 (const_mx 1)] f None].
Theorem separate_not_verlet : exists ms' qms', md_step_separate 1 0 1 pull (moving [:: Some [:: 0]]) (moving [:: Some [:: 0]]) = Ok (ms', qms')
  /\ fresh 1 pull (moving [:: Some [:: 0]]) /\ ~ verlet 0 1 pull (moving [:: Some [:: 0]]) ms'.
Proof.
eexists; eexists; split; first by [].
split.
  split=> // -[|//] _; split=> // -[|//] _ /=; congr (Some [:: _]).
  by apply/rowP=> c; rewrite !mxE mulr0 oppr0.
case=> _ V; have [_ /(_ 0%N isT)[_ P0 V0]] := V 0%N isT.
rewrite /accel /pull /springs /= in P0 V0.
have := congr1 (fun m : 'rV[F]_3 => m 0 0) V0.
rewrite !mxE /= !(mulr0, mulr1, addr0, add0r, oppr0, invr1, mul1r) => /eqP.
by rewrite -[X in X == _]addr0 (inj_eq (addrI _)) eq_sym mulf_eq0 invr_eq0 oppr_eq0 oner_eq0 pnatr_eq0.
Qed.

End Witness.

(** uninitialised Hamiltonian: with a vanishing true Hamiltonian and 6 in
    memory the imaginary part becomes -1 *)
Section Uninit.
Variable F : realFieldType.
Definition sh_w : sh F 0 1 := Sh 0 0 (const_mx 6%:R).
Theorem uninitialised : exists c : coef F 1,
  (electronic_propagator (fun _ => 0) 0 1 1 sh_w c).2 <> rk4_run 1 (ham_line (fun _ => 0) (cur_coords sh_w) 0 0) 0 1 c.
Proof.
exists (const_mx 1, 0) => E.
have := congr1 (fun c : coef F 1 => c.2 0 0) E.
have -> : (electronic_propagator (fun _ => 0) 0 1 1 sh_w (const_mx 1, 0)).2 =
   (rk4_st (fun _ => 0) 0 1 sh_w (cur_time sh_w) (const_mx 1, 0) 1).2.
  by cbn [electronic_propagator]; case: (rk4_st _ _ _ _ _ _ _).
rewrite (rk4_st_stored _ _ (oner_neq0 _)) /rk4_run /rk4_schroedinger /ham_line /minus_i_H /axpy /rk_sum /sh_w.
rewrite !(mul0mx, mulmx0) /= !(mul0mx, mulmx0, oppr0, scaler0, addr0, add0r) !mxE big_ord1 !mxE mulr1 => /eqP.
by rewrite !(mulf_eq0, invr_eq0, oppr_eq0) ?oner_eq0 !pnatr_eq0.
Qed.
End Uninit.

(** every pair of atoms attracts: no net force and no torque *)
Section Pairs.
Variable F : realFieldType.
Notation vec := 'rV[F]_3.
Definition pairs : driver F := fun x i _ => [seq \sum_(z <- flatten x) (z - y) | y <- nth [::] x i].
Lemma pairs_shaped : driver_shaped pairs. Proof. by move=> x i s _; rewrite size_map. Qed.
Lemma sum_flatten (V : zmodType) (x : seq (seq vec)) (G : vec -> V) :
  \sum_(i < size x) \sum_(k < size (nth [::] x i)) G (nth 0 (nth [::] x i) k) = \sum_(y <- flatten x) G y.
Proof.
rewrite big_flatten /= (big_nth [::]) big_mkord; apply: eq_bigr => i _.
by rewrite [RHS](big_nth 0) big_mkord.
Qed.
Lemma pairs_net : no_net_force pairs 0.
Proof.
move=> x; transitivity (\sum_(y <- flatten x) \sum_(z <- flatten x) (z - y)).
  rewrite -[RHS](sum_flatten x (fun y => \sum_(z <- flatten x) (z - y))).
  by apply: eq_bigr => i _; apply: eq_bigr => k _; rewrite (nth_map 0).
under eq_bigr do rewrite big_split /=.
rewrite big_split /= exchange_big /= -big_split /= big1 // => y _.
by rewrite -big_split /= big1 // => z _; rewrite subrr.
Qed.
Lemma wedge_sumr (I : Type) (r : seq I) (y : vec) (G : I -> vec) : wedge y (\sum_(i <- r) G i) = \sum_(i <- r) wedge y (G i).
Proof.
elim: r => [|i r IH]; first by rewrite !big_nil /wedge mulmx0 trmx0 mul0mx subrr.
by rewrite !big_cons wedgeDr IH.
Qed.
Lemma pairs_torque : no_torque pairs 0.
Proof.
move=> x; transitivity (\sum_(y <- flatten x) \sum_(z <- flatten x) wedge y z).
  rewrite -[RHS](sum_flatten x (fun y => \sum_(z <- flatten x) wedge y z)).
  apply: eq_bigr => i _; apply: eq_bigr => k _; rewrite (nth_map 0) // wedge_sumr.
  by apply: eq_bigr => z _; rewrite wedgeDr -scaleN1r wedgeZr wedgexx scaler0 addr0.
set S := \sum_(y <- _) _.
have E : S = - S.
  rewrite {1}/S exchange_big /= -sumrN; apply: eq_bigr => y _; rewrite -sumrN; apply: eq_bigr => z _.
  by rewrite /wedge opprB.
have : (2%:R : F) *: S = 0 by rewrite scaler_nat mulr2n {2}E subrr.
by move/eqP; rewrite scaler_eq0 pnatr_eq0 /= => /eqP.
Qed.
End Pairs.
