(** Proofs about the bosonic estimators. *)
From mathcomp Require Import all_ssreflect all_algebra all_field.
From Verif Require Import LinModel LinSpec LinProofs LinExamples EBModel EBSpec.
From Verif Require Base.
Set Implicit Arguments.
Unset Strict Implicit.
Unset Printing Implicit Defensive.
Import Order.TTheory GRing.Theory Num.Theory.
Local Open Scope ring_scope.

Section EBP.
Variables (F : fieldType) (conj : {rmorphism F -> F}) (s : nat -> F).
Implicit Types (modes : seq (nat * F)) (G Hb : nat -> nat -> F).

Lemma h_odE i j : h_od s i j = quad s i j.
Proof.
rewrite /h_od /lower /quad; have [->|_] := eqVneq i j.+1.
  by rewrite (_ : (j == j.+2) = false) ?add0r //; elim: j.
by rewrite addr0; have [->|] := eqVneq j i.+1.
Qed.

Lemma quad_sym i j : quad s i j = quad s j i.
Proof. by rewrite -!h_odE /h_od addrC. Qed.

Lemma adag_loopE modes : forall idx Hb i j,
  (forall i j, (idx <= i)%N || (idx <= j)%N -> Hb i j = 0) ->
  adag_loop s idx modes Hb i j =
  if (i < idx)%N && (j < idx)%N then Hb i j
  else if (i < idx)%N || (j < idx)%N then 0 else blocks s modes (i - idx) (j - idx).
Proof.
elim: modes => [|[d z] r IH] idx Hb i j H /=.
  case: ltnP => Hi; case: ltnP => Hj //=; by rewrite H // ?Hi ?Hj ?orbT.
rewrite IH => [|i' j' H']; last first.
  rewrite /inblk; case: ifP => [/andP[/andP[_ A] /andP[_ B]]|_].
    by case/orP: H'; rewrite leqNgt ?A ?B.
  by apply: H; case/orP: H' => L; rewrite (leq_trans (leq_addr d idx) L) ?orbT.
rewrite /inblk; case: (ltnP i idx) => Hi; case: (ltnP j idx) => Hj /=.
- have -> : (i < idx + d)%N by rewrite (leq_trans Hi) ?leq_addr.
  by have -> : (j < idx + d)%N by rewrite (leq_trans Hj) ?leq_addr.
- have -> : (i < idx + d)%N by rewrite (leq_trans Hi) ?leq_addr.
  by case: (ltnP j (idx + d)) => //= _; rewrite H ?Hj ?orbT.
- have -> : (j < idx + d)%N by rewrite (leq_trans Hj) ?leq_addr.
  by case: (ltnP i (idx + d)) => //= _; rewrite H ?Hi.
- have -> : (i < idx + d)%N = (i - idx < d)%N by rewrite ltn_subLR.
  have -> : (j < idx + d)%N = (j - idx < d)%N by rewrite ltn_subLR.
  by case: ltnP => A; case: ltnP => B //=; rewrite ?h_odE 1?mulrC ?subnDA.
Qed.

Lemma adagE modes i j : boson_adag_plus_a s modes i j = blocks s modes i j.
Proof. by rewrite /boson_adag_plus_a adag_loopE //= !subn0. Qed.

Lemma blocks_sym modes : forall i j, blocks s modes i j = blocks s modes j i.
Proof.
elim: modes => [|[d z] r IH] i j //=.
by case: ltnP => _; case: ltnP => _ //; rewrite quad_sym.
Qed.

Lemma sum_split n m (f : nat -> F) :
  \sum_(i < n + m) f i = \sum_(i < n) f i + \sum_(i < m) f (n + i)%N.
Proof. by rewrite big_split_ord. Qed.

Lemma blocks_energy modes : forall off G,
  \sum_(i < msize modes) \sum_(j < msize modes) blocks s modes i j * G (off + i)%N (off + j)%N
  = per_mode (fun d z G => z * \sum_(n < d) \sum_(m < d) quad s n m * G n m) off modes G.
Proof.
elim: modes => [|[d z] r IH] off G /=; first by rewrite big_ord0.
rewrite /msize /= -/(msize r) (sum_split d (msize r) (fun i => \sum_(j < d + msize r)
   (if (i < d)%N then if (j < d)%N then z * quad s i j else 0
    else if (j < d)%N then 0 else blocks s r (i - d) (j - d)) * G (off + i)%N (off + j)%N)).
congr (_ + _).
  rewrite mulr_sumr; apply: eq_bigr => i _; rewrite (ltn_ord i).
  rewrite (sum_split d (msize r) (fun j => (if (j < d)%N then z * quad s i j else 0)
     * G (off + i)%N (off + j)%N)).
  rewrite [X in _ + X]big1 ?addr0; last first.
    by move=> j _; rewrite ltnNge leq_addr /= mul0r.
  by rewrite mulr_sumr; apply: eq_bigr => j _; rewrite (ltn_ord j) mulrA.
rewrite -IH; apply: eq_bigr => i _; rewrite ltnNge leq_addr /=.
rewrite (sum_split d (msize r) (fun j => (if (j < d)%N then 0 else blocks s r (d + i - d) (j - d))
   * G (off + (d + i))%N (off + j)%N)).
rewrite [X in X + _]big1 ?add0r; last by move=> j _; rewrite (ltn_ord j) mul0r.
by apply: eq_bigr => j _; rewrite ltnNge leq_addr /= !addKn !addnA.
Qed.

Lemma adag_energy modes G :
  \sum_(i < msize modes) \sum_(j < msize modes) boson_adag_plus_a s modes i j * G i j
  = coupling_energy s modes G.
Proof.
rewrite /coupling_energy -blocks_energy; apply: eq_bigr => i _; apply: eq_bigr => j _.
by rewrite adagE !add0n.
Qed.

(** the loop of the coupling energy *)
Lemma eb_loopE modes : forall Hb i j, eb_loop s 0%N modes Hb i j =
  Hb i j + \sum_(m <- modes) (if (i < m.1)%N && (j < m.1)%N then m.2 * quad s i j else 0).
Proof.
elim: modes => [|[d z] r IH] Hb i j /=; first by rewrite big_nil addr0.
rewrite IH big_cons /inblk /= !add0n !subn0 h_odE; case: ifP => _.
  by rewrite addrA [quad _ _ _ * z]mulrC.
by rewrite add0r.
Qed.

Lemma mem_msize modes m : m \in modes -> (m.1 <= msize modes)%N.
Proof.
elim: modes => [|a r IH] //=; rewrite inE /msize /= => /orP[/eqP->|/IH H]; first exact: leq_addr.
exact: (leq_trans H (leq_addl _ _)).
Qed.

Lemma eb_actual modes G :
  local_eng_eboson s modes G
  = \sum_(m <- modes) m.2 * \sum_(i < m.1) \sum_(j < m.1) quad s i j * G i j.
Proof.
rewrite /local_eng_eboson; set N := msize modes.
transitivity (\sum_(i < N) \sum_(m <- modes) \sum_(j < N)
   (if (i < m.1)%N && (j < m.1)%N then m.2 * quad s i j else 0) * G i j).
  apply: eq_bigr => i _; rewrite exchange_big /=; apply: eq_bigr => j _.
  by rewrite eb_loopE add0r mulr_suml.
rewrite exchange_big /= big_seq [RHS]big_seq; apply: eq_bigr => m /mem_msize L.
rewrite (big_ord_widen _ (fun i => \sum_(j < m.1) quad s i j * G i j) L) mulr_sumr [RHS]big_mkcond /=.
apply: eq_bigr => i _; case: ltnP => Hi; last first.
  by rewrite big1 // => j _; rewrite mul0r.
rewrite (big_ord_widen _ (fun j => quad s i j * G i j) L) mulr_sumr [RHS]big_mkcond /=.
by apply: eq_bigr => j _; case: ltnP => _; rewrite ?mul0r // mulrA.
Qed.

Lemma eb_single d z G : local_eng_eboson s [:: (d, z)] G = coupling_energy s [:: (d, z)] G.
Proof. by rewrite eb_actual big_seq1 /coupling_energy /= addr0. Qed.

(** number operator *)
Lemma number_flat d (ws : seq F) : forall off G,
  \sum_(f < size ws * d) (nth 0 ws (f %/ d) * (f %% d)%:R) * G (off + f)%N (off + f)%N
  = per_mode (fun d w G => \sum_(n < d) w * n%:R * G n n) off [seq (d, w) | w <- ws] G.
Proof.
elim: ws => [|w r IH] off G /=; first by rewrite big_ord0.
rewrite mulSn (sum_split d (size r * d) (fun f => (nth 0 (w :: r) (f %/ d) * (f %% d)%:R)
   * G (off + f)%N (off + f)%N)).
congr (_ + _); first by apply: eq_bigr => i _; rewrite divn_small // modn_small.
rewrite -IH; apply: eq_bigr => i _.
have dp : (0 < d)%N by case: (d) i => [|//] [] i; rewrite muln0.
by rewrite divnDl ?dvdnn // divnn dp modnDl addnA.
Qed.

Lemma boson_energy_equal d (ws : seq F) G : ws <> [::] ->
  local_eng_boson [seq (d, w) | w <- ws] G = Base.Ok (number_energy [seq (d, w) | w <- ws] G).
Proof.
rewrite /number_energy -number_flat; case: ws => [|w r] //= _; rewrite eqxx /= ifT; last by rewrite all_map; apply/allP => x _ /=.
congr (Base.Ok _); rewrite size_map; apply: eq_bigr => i _; rewrite !add0n.
congr (_ * _ * _); rewrite -[_ :: [seq _ | _ <- r]]/[seq (d, w) | w <- w :: r].
case: (ltnP (i %/ d) (size (w :: r))) => L; first by rewrite (nth_map 0).
by rewrite !nth_default ?size_map.
Qed.

(** bosonic Green's function *)
Section GF.
Variables (n : nat) (phi psi : 'I_n -> F).
Hypothesis ov : boson_ovlp conj phi psi != 0.
Notation G := (boson_gf conj phi psi).
Lemma bgf_trace : \sum_i G i i = 1.
Proof.
rewrite /boson_gf; under eq_bigr => i _ do rewrite mulrAC.
by rewrite -mulr_suml divff.
Qed.
Lemma bgf_walker i : \sum_j G i j * phi j = phi i.
Proof.
rewrite /boson_gf; under eq_bigr => j _ do rewrite -!mulrA [conj _ * _]mulrC.
by rewrite -mulr_sumr -mulr_sumr mulVf ?mulr1.
Qed.
Lemma bgf_idem i j : \sum_k G i k * G k j = G i j.
Proof.
transitivity ((\sum_k G i k * phi k) * (boson_ovlp conj phi psi)^-1 * conj (psi j)).
  by rewrite !mulr_suml; apply: eq_bigr => k _; rewrite [in G k j]/boson_gf !mulrA.
by rewrite bgf_walker.
Qed.
End GF.

Lemma extE n (M : 'I_n -> 'I_n -> F) (i j : 'I_n) : ext M i j = M i j.
Proof. by rewrite /ext !valK. Qed.

Lemma boson_single d w (phi psi : 'I_d -> F) :
  local_eng_boson [:: (d, w)] (ext (boson_gf conj phi psi)) = Base.Ok (mixed_number conj w phi psi).
Proof.
rewrite (@boson_energy_equal d [:: w]) //; congr (Base.Ok _).
rewrite /number_energy /mixed_number /= addr0 mulr_suml; apply: eq_bigr => i _.
by rewrite !add0n extE /boson_gf -!mulrA; congr (_ * (_ * (_ * _))); rewrite mulrC.
Qed.

(** expectation of the displacement *)
Lemma qalpha_phase d (ws : seq (F * ('I_d -> F))) c : c * conj c = 1 ->
  qalpha conj s [seq (w.1, fun i => c * w.2 i) | w <- ws] = qalpha conj s ws.
Proof.
move=> H; rewrite /qalpha !big_map /=; apply: eq_bigr => i _; apply: eq_bigr => j _.
congr (_ * (_ / _)); rewrite big_map; apply: eq_bigr => w _ /=; congr (_ * _).
by rewrite rmorphM mulrACA H mul1r.
Qed.

(** averaged density *)
Lemma rho_trace p (ws : seq (F * 'M[F]_p)) N :
  (forall w, w \in ws -> \tr w.2 = N) -> \sum_(w <- ws) w.1 != 0 -> \tr (rho ws) = N.
Proof.
move=> H nz; rewrite /rho mxtraceZ.
have -> : \tr (\sum_(w <- ws) w.1 *: w.2) = (\sum_(w <- ws) w.1) * N.
  rewrite (raddf_sum (mxtrace_additive F p)) mulr_suml big_seq [RHS]big_seq.
  by apply: eq_bigr => w wi; rewrite -(H w wi); apply: mxtraceZ.
by rewrite mulrA mulVf ?mul1r.
Qed.

Lemma rho_trace_uhf p na nb (Ta : 'M[F]_(p, na)) (Tb : 'M[F]_(p, nb))
  (ws : seq (F * ('M[F]_(p, na) * 'M[F]_(p, nb)))) :
  (forall w, w \in ws -> slater conj Ta w.2.1 != 0 /\ slater conj Tb w.2.2 != 0) ->
  \sum_(w <- ws) w.1 != 0 ->
  \tr (rho [seq (w.1, gf_total_uhf (gfull conj w.2.1 Ta) (gfull conj w.2.2 Tb)) | w <- ws])
  = (na + nb)%:R.
Proof.
move=> H nz; apply: rho_trace; last by rewrite big_map.
move=> _ /mapP[w wi ->] /=; have [A B] := H w wi.
rewrite /gf_total_uhf mxtraceD natrD; congr (_ + _).
  by have [] := gf_projector A.
by have [] := gf_projector B.
Qed.

Lemma rho_trace_rhf p n (T : 'M[F]_(p, n)) (ws : seq (F * 'M[F]_(p, n))) :
  (forall w, w \in ws -> slater conj T w.2 != 0) -> \sum_(w <- ws) w.1 != 0 ->
  \tr (rho [seq (w.1, gf_total_rhf (gfull conj w.2 T)) | w <- ws]) = (2 * n)%:R.
Proof.
move=> H nz; apply: rho_trace; last by rewrite big_map.
move=> _ /mapP[w wi ->] /=; rewrite /gf_total_rhf mxtraceZ natrM; congr (_ * _).
by have [] := gf_projector (H w wi).
Qed.
End EBP.

(** renormalisation *)
Section RenormP.
Variables (F : numClosedFieldType) (n : nat) (phi : 'I_n -> F).
Hypothesis nz : exists k, phi k != 0.
Let S : F := \sum_k phi k * (phi k)^*.
Lemma norm2_gt0 : 0 < S.
Proof.
have [k kn] := nz; rewrite /S (bigD1 k) //= ltr_paddr //.
  by apply: sumr_ge0 => j _; apply: mul_conjC_ge0.
by rewrite mul_conjC_gt0.
Qed.
Lemma bnorm_gt0 : 0 < boson_norm phi.
Proof. by rewrite /boson_norm sqrtC_gt0 norm2_gt0. Qed.
Lemma renorm_prob k : boson_renorm phi k * (boson_renorm phi k)^* = phi k * (phi k)^* / S.
Proof.
rewrite /boson_renorm -!normCK normr_id !normCK rmorphM /= fmorphV.
have E : (boson_norm phi)^* = boson_norm phi by apply: geC0_conj; exact: ltW bnorm_gt0.
by rewrite E mulrACA -invfM -expr2 sqrtCK.
Qed.
Lemma renorm_unit : \sum_k boson_renorm phi k * (boson_renorm phi k)^* = 1.
Proof.
under eq_bigr => k _ do rewrite renorm_prob.
by rewrite -mulr_suml divff // gt_eqF // norm2_gt0.
Qed.
Lemma renorm_nonneg : (forall k, 0 <= phi k) -> same_ray phi (boson_renorm phi).
Proof.
move=> H; exists (boson_norm phi)^-1 => k; rewrite /boson_renorm mulrC ger0_norm //.
by rewrite mulr_ge0 // invr_ge0 ltW // bnorm_gt0.
Qed.
End RenormP.

Definition vec2 (F : ringType) (a b : F) : 'I_2 -> F := fun k => if k == ord0 then a else b.
Lemma renorm_bad : ~ same_ray (vec2 (1 : algC) (-1)) (boson_renorm (vec2 1 (-1))).
Proof.
case=> c H; have := H ord0; have := H ord_max; rewrite /boson_renorm /vec2 /= mulrN1 mulr1 => A B.
have nzz : exists k, vec2 (1 : algC) (-1) k != 0 by exists ord0; rewrite /vec2 /= oner_eq0.
have P := bnorm_gt0 nzz; rewrite /vec2 in P.
have E : c = - c by rewrite -[LHS]B -A !normrM normrN.
have C0 : c = 0.
  by apply/eqP; move/eqP: E; rewrite -subr_eq0 opprK -mulr2n mulrn_eq0.
move/eqP: B; rewrite C0 normr_eq0 mul1r invr_eq0 => /eqP Z.
by rewrite /vec2 Z ltxx in P.
Qed.

(** counterexamples over the rationals; only the square root of 1 is used *)
Definition one2 : seq (nat * rat) := [:: (2%N, 0); (2%N, 1)].
Definition gex : nat -> nat -> rat := fun i j => if (i == 2%N) && (j == 3%N) then 1 else 0.
Definition sq01 : nat -> rat := fun n => n%:R.
Lemma eb_bad : local_eng_eboson sq01 one2 gex <> coupling_energy sq01 one2 gex.
Proof.
rewrite eb_actual /coupling_energy /one2 !big_cons big_nil /= !big_ord_recl !big_ord0.
by rewrite /gex /quad /sq01 /=; apply/eqP.
Qed.
Lemma boson_bad : local_eng_boson [:: (1%N, 1 : rat); (2%N, 1)] (fun _ _ => 1)
  = Base.Err Base.ValueError.
Proof. by []. Qed.
Definition cat2 (phi : 'I_2 -> rat) : 'I_4 -> rat := fun k => phi (if odd k then ord_max else ord0).
Lemma boson_not_additive :
  let phi := vec2 (0 : rat) 1 in
  local_eng_boson [:: (2%N, 1); (2%N, 1)] (ext (boson_gf idr (cat2 phi) (cat2 phi)))
  <> Base.Ok (mixed_number idr 1 phi phi + mixed_number idr 1 phi phi).
Proof.
move=> phi; rewrite (@boson_energy_equal _ 2 [:: 1; 1]) // => -[].
rewrite /number_energy /mixed_number /= !big_ord_recl !big_ord0 /=.
have e (i : 'I_4) : ext (boson_gf idr (cat2 phi) (cat2 phi)) i i = boson_gf idr (cat2 phi) (cat2 phi) i i
  by rewrite extE.
have -> : ext (boson_gf idr (cat2 phi) (cat2 phi)) 1%N 1%N = 2%:R^-1.
  rewrite (e (@Ordinal 4 1 isT)) /boson_gf /boson_ovlp !big_ord_recl big_ord0 /cat2 /phi /vec2 /=.
  by apply/eqP.
have -> : ext (boson_gf idr (cat2 phi) (cat2 phi)) 3%N 3%N = 2%:R^-1.
  rewrite (e (@Ordinal 4 3 isT)) /boson_gf /boson_ovlp !big_ord_recl big_ord0 /cat2 /phi /vec2 /=.
  by apply/eqP.
rewrite !mulr0 !mul0r /phi /vec2 /=; move/eqP; vm_compute; by [].
Qed.
Lemma qalpha_bad : qalpha idr sq01 [:: (1, fun i => 2%:R * vec2 1 1 i)]
  <> qalpha idr sq01 [:: (1, vec2 1 1)].
Proof.
rewrite /qalpha !big_cons !big_nil !big_ord_recl !big_ord0 /h_od /lower /sq01 /vec2 /=.
by rewrite !big_cons !big_nil /=; apply/eqP.
Qed.

Lemma boson_dims_bad : exists (modes : seq (nat * rat)) G,
  modes <> [::] /\ local_eng_boson modes G <> Base.Ok (number_energy modes G).
Proof. by exists [:: (1%N, 1); (2%N, 1)], (fun _ _ => 1). Qed.
Lemma renorm_state_bad : exists n (phi : 'I_n -> algC),
  (exists k, phi k != 0) /\ ~ same_ray phi (boson_renorm phi).
Proof.
exists 2%N, (vec2 1 (-1)); split; last exact: renorm_bad.
by exists ord0; rewrite /vec2 /= oner_eq0.
Qed.
