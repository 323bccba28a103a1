From mathcomp Require Import all_ssreflect all_algebra.
From Verif Require Base.
From Verif Require Import PccModel PccSpec.
Set Implicit Arguments.
Unset Strict Implicit.
Unset Printing Implicit Defensive.
Import GRing.Theory.
Local Open Scope ring_scope.

Arguments so : simpl never.
Arguments get_j : simpl never.
Arguments get_k : simpl never.
Section P.
Variable F : fieldType.
Implicit Types (A B X ca cb : arr F).

Lemma sum_two n (f : nat -> F) :
  \sum_(i < n + n) f i = \sum_(i < n) f i + \sum_(i < n) f (n + i)%N.
Proof. by rewrite big_split_ord. Qed.
Lemma sum_app n k (f : nat -> F) :
  \sum_(i < n + k) f i = \sum_(i < n) f i + \sum_(i < k) f (n + i)%N.
Proof. by rewrite big_split_ord. Qed.

Lemma bd_ul r c A B i j : (i < r)%N -> (j < c)%N -> block_diag r c A B i j = A i j.
Proof. by rewrite /block_diag => -> ->. Qed.
Lemma bd_ur r c A B i j : (i < r)%N -> block_diag r c A B i (c + j)%N = 0.
Proof. by rewrite /block_diag => ->; rewrite ltnNge leq_addr. Qed.
Lemma bd_dl r c A B i j : (j < c)%N -> block_diag r c A B (r + i)%N j = 0.
Proof. by rewrite /block_diag => ->; rewrite ltnNge leq_addr. Qed.
Lemma bd_dr r c A B i j : block_diag r c A B (r + i)%N (c + j)%N = B i j.
Proof. by rewrite /block_diag !ltnNge !leq_addr /= !addKn. Qed.

Definition ctot n ca cb : arr F := block_diag n n ca cb.

(* sum over the rows of a product with a block *)
Lemma ctot_up n ca cb (p : 'I_n) a : ctot n ca cb p a = so n ca cb a true p.
Proof. by rewrite /ctot /block_diag ltn_ord /so. Qed.
Lemma ctot_dn n ca cb (p : nat) a : ctot n ca cb (n + p)%N a = so n ca cb a false p.
Proof. by rewrite /ctot /block_diag ltnNge leq_addr /= /so addKn. Qed.

Lemma rot_bd n ca cb A B a b :
  rot2 n (ctot n ca cb) (ctot n ca cb) (block_diag n n A B) a b
  = \sum_(p < n) \sum_(q < n) so n ca cb a true p * A p q * so n ca cb b true q
    + \sum_(p < n) \sum_(q < n) so n ca cb a false p * B p q * so n ca cb b false q.
Proof.
rewrite /rot2 big_split_ord; congr (_ + _);
  apply: eq_bigr => p _; rewrite big_split_ord /=.
- rewrite [X in _ + X]big1 ?addr0 => [|q _]; last by rewrite bd_ur ?ltn_ord ?mulr0 ?mul0r.
  by apply: eq_bigr => q _; rewrite bd_ul ?ltn_ord // !ctot_up.
- rewrite [X in X + _]big1 ?add0r => [|q _]; last by rewrite bd_dl ?ltn_ord ?mulr0 ?mul0r.
  by apply: eq_bigr => q _; rewrite bd_dr !ctot_dn.
Qed.

Lemma rot_ext n A A' B B' X i j i' j' :
  (forall p, (p < n + n)%N -> A p i = A' p i') -> (forall p, (p < n + n)%N -> B p j = B' p j') ->
  rot2 n A B X i j = rot2 n A' B' X i' j'.
Proof.
move=> hA hB; apply: eq_bigr => p _; apply: eq_bigr => q _.
by rewrite hA ?ltn_ord // hB ?ltn_ord.
Qed.
Lemma rot_extX n A B X Y i j :
  (forall p q, X p q = Y p q) -> rot2 n A B X i j = rot2 n A B Y i j.
Proof. by move=> h; apply: eq_bigr => p _; apply: eq_bigr => q _; rewrite h. Qed.
Lemma rotD n A B X Y i j :
  rot2 n A B (fun p q => X p q + Y p q) i j = rot2 n A B X i j + rot2 n A B Y i j.
Proof.
rewrite /rot2 -big_split; apply: eq_bigr => p _; rewrite -big_split; apply: eq_bigr => q _ /=.
by rewrite mulrDr mulrDl.
Qed.
Lemma rotN n A B X i j : rot2 n A B (fun p q => - X p q) i j = - rot2 n A B X i j.
Proof.
rewrite /rot2 -sumrN; apply: eq_bigr => p _; rewrite -sumrN; apply: eq_bigr => q _.
by rewrite mulrN mulNr.
Qed.

(* columns *)
Lemma oidx_nth n na nb i : (i < na + nb)%N ->
  nth 0%N (oidx n na nb) i = if (i < na)%N then i else (n + (i - na))%N.
Proof.
move=> hi; rewrite /oidx nth_cat size_iota; case: ltnP => h; rewrite nth_iota //.
by rewrite ltn_subLR.
Qed.
Lemma vidx_nth n na nb i : (i < (n - na) + (n - nb))%N ->
  nth 0%N (vidx n na nb) i
  = if (i < n - na)%N then (na + i)%N else (n + nb + (i - (n - na)))%N.
Proof.
move=> hi; rewrite /vidx nth_cat size_iota; case: ltnP => h; rewrite nth_iota //.
by rewrite ltn_subLR.
Qed.
Lemma Co_col n ca cb na nb p i : (na <= n)%N -> (i < na + nb)%N ->
  Co n ca cb na p i = ctot n ca cb p (nth 0%N (oidx n na nb) i).
Proof.
move=> hn hi; rewrite oidx_nth // /Co /ctot /block_diag.
case: (ltnP i na) => h; first by rewrite (leq_trans h hn).
by rewrite [(n + _ < n)%N]ltnNge leq_addr /= addKn.
Qed.
Lemma Cv_col n ca cb na nb p i : (na <= n)%N -> (i < (n - na) + (n - nb))%N ->
  Cv n ca cb na nb p i = ctot n ca cb p (nth 0%N (vidx n na nb) i).
Proof.
move=> hn hi; rewrite vidx_nth // /Cv /ctot /block_diag.
case: (ltnP i (n - na)) => h.
  by rewrite -ltn_subRL h.
by rewrite -addnA [(n + _ < n)%N]ltnNge leq_addr /= addKn.
Qed.
Lemma idx_all n na nb : (na <= n)%N -> (nb <= n)%N ->
  perm_eq (oidx n na nb ++ vidx n na nb) (iota 0 (n + n)).
Proof.
move=> ha hb.
have ea : iota 0 n = iota 0 na ++ iota na (n - na) by rewrite -iotaD subnKC.
have eb : iota n n = iota n nb ++ iota (n + nb) (n - nb) by rewrite -iotaD subnKC.
rewrite iotaD ea eb /oidx /vidx -!catA perm_cat2l; exact/permEl/perm_catCA.
Qed.

(* spin orbitals *)
Lemma so_hcols n ca cb a up p :
  so n ca cb a up p = if (a < n)%N == up then hcols n ca cb p a else 0.
Proof. by rewrite /so /hcols; case: up; case: ifP. Qed.

Lemma spin_coul n ca cb (v : arr4 F) m g a b c d :
  spin_eri n ca cb v m g a b c d = coul n ca cb (with_dse v m g) a b c d.
Proof.
rewrite /coul.
transitivity (\sum_up \sum_up' (if [&& (a < n)%N == up, (b < n)%N == up, (c < n)%N == up'
                                & (d < n)%N == up'] then mo_eri n ca cb v m g a b c d else 0)).
  rewrite !big_bool /spin_eri.
  by case: (a < n)%N; case: (b < n)%N; case: (c < n)%N; case: (d < n)%N; rewrite /= ?addr0 ?add0r.
apply: eq_bigr => up _; apply: eq_bigr => up' _.
case: ifP => [/and4P [ha hb hc hd]|hn].
  apply: eq_bigr => p _; apply: eq_bigr => q _; apply: eq_bigr => r _; apply: eq_bigr => s _.
  by rewrite !so_hcols ha hb hc hd.
symmetry; apply: big1 => p _; apply: big1 => q _; apply: big1 => r _; apply: big1 => s _.
move: hn; rewrite !so_hcols; do 4 (case: eqP => _); by rewrite //= ?(mulr0, mul0r).
Qed.

Lemma get_I_anti n ca cb (v : arr4 F) m g p q r s :
  get_I n ca cb v m g p q r s = anti n ca cb (with_dse v m g) p q r s.
Proof. by rewrite /get_I !spin_coul. Qed.

Lemma coul_pair n ca cb (v : arr4 F) a b c d : eri_sym v ->
  coul n ca cb v a b c d = coul n ca cb v c d a b.
Proof.
move=> hv; rewrite /coul exchange_big /=; apply: eq_bigr => up _; apply: eq_bigr => up' _.
rewrite exchange_big /= [RHS]exchange_big /=.
have sw (f : nat -> nat -> nat -> nat -> F) :
  \sum_(p < n) \sum_(q < n) \sum_(r < n) \sum_(s < n) f p q r s
  = \sum_(r < n) \sum_(s < n) \sum_(p < n) \sum_(q < n) f p q r s.
  under eq_bigr => p _.
    rewrite exchange_big /=; under eq_bigr => r _ do rewrite exchange_big /=. over.
  rewrite exchange_big /=; apply: eq_bigr => r _; rewrite exchange_big /=; exact: eq_bigr.
rewrite -[LHS](exchange_big) /= -[RHS](exchange_big) /=.
rewrite (sw (fun p q r s => v p q r s * (so n ca cb a up' p * so n ca cb b up' q *
   (so n ca cb c up r * so n ca cb d up s)))).
apply: eq_bigr => p _; apply: eq_bigr => q _; apply: eq_bigr => r _; apply: eq_bigr => s _.
by rewrite (hv r s p q).2 [in LHS]mulrC [in RHS]mulrC [X in X * _]mulrC.
Qed.
Lemma coul_swap n ca cb (v : arr4 F) a b c d : eri_sym v ->
  coul n ca cb v a b c d = coul n ca cb v b a c d.
Proof.
move=> hv; apply: eq_bigr => up _; apply: eq_bigr => up' _; rewrite exchange_big /=.
apply: eq_bigr => p _; apply: eq_bigr => q _; apply: eq_bigr => r _; apply: eq_bigr => s _.
by rewrite (hv q p r s).1 [so n ca cb a up q * _]mulrC.
Qed.
Lemma dse_sym (v : arr4 F) m g : eri_sym v -> (forall x, sym2 (g x)) -> eri_sym (with_dse v m g).
Proof.
move=> hv hg p q r s; rewrite /with_dse; split.
  by rewrite (hv p q r s).1; congr (_ + _); apply: eq_bigr => x _; rewrite (hg x p q).
by rewrite (hv p q r s).2; congr (_ + _); apply: eq_bigr => x _; rewrite mulrC.
Qed.

Lemma anti_left n ca cb (v : arr4 F) p q r s : eri_sym v ->
  anti n ca cb v q p r s = - anti n ca cb v p q r s.
Proof. by move=> h; rewrite /anti (coul_pair _ _ _ q r) // (coul_pair _ _ _ q s) // opprB. Qed.
Lemma anti_right n ca cb (v : arr4 F) p q r s :
  anti n ca cb v p q s r = - anti n ca cb v p q r s.
Proof. by rewrite /anti opprB. Qed.
Lemma anti_herm n ca cb (v : arr4 F) p q r s : eri_sym v ->
  anti n ca cb v r s p q = anti n ca cb v p q r s.
Proof.
move=> h; rewrite /anti; congr (_ - _).
  by rewrite coul_swap // coul_pair // coul_swap // coul_pair.
by rewrite coul_swap // coul_pair // coul_swap.
Qed.

(* densities *)
Lemma dens_so n ca cb na nb up (r s : nat) : (na <= n)%N ->
  \sum_(i < na + nb) so n ca cb (nth 0%N (oidx n na nb) i) up r
                     * so n ca cb (nth 0%N (oidx n na nb) i) up s
  = (if up then pa ca na else pb cb nb) r s.
Proof.
move=> hn; rewrite big_split_ord /=.
have h1 (i : 'I_na) : nth 0%N (oidx n na nb) i = i.
  by rewrite oidx_nth ?(leq_trans (ltn_ord i) (leq_addr _ _)) // ltn_ord.
have h2 (i : 'I_nb) : nth 0%N (oidx n na nb) (na + i) = (n + i)%N.
  by rewrite oidx_nth ?ltn_add2l // ltnNge leq_addr /= addKn.
have h3 (i : 'I_na) : (i < n)%N by apply: leq_trans hn.
case: up; rewrite /so.
  rewrite [X in _ + X]big1 ?addr0 => [|i _]; last by rewrite h2 ltnNge leq_addr /= mulr0.
  by apply: eq_bigr => i _; rewrite h1 h3.
rewrite [X in X + _]big1 ?add0r => [|i _]; last by rewrite h1 h3 mulr0.
by apply: eq_bigr => i _; rewrite h2 ltnNge leq_addr /= addKn.
Qed.
Lemma so_cross n ca cb a up up' (q r : nat) : up != up' ->
  so n ca cb a up q * so n ca cb a up' r = 0.
Proof.
rewrite !so_hcols; case: (a < n)%N; case: up; case: up' => //= _; by rewrite ?mul0r ?mulr0.
Qed.

Lemma sum4 k n (f : 'I_k -> 'I_n -> 'I_n -> 'I_n -> 'I_n -> F) :
  \sum_(i < k) \sum_(p < n) \sum_(q < n) \sum_(r < n) \sum_(s < n) f i p q r s
  = \sum_(p < n) \sum_(q < n) \sum_(r < n) \sum_(s < n) \sum_(i < k) f i p q r s.
Proof.
rewrite exchange_big /=; apply: eq_bigr => p _; rewrite exchange_big /=; apply: eq_bigr => q _.
by rewrite exchange_big /=; apply: eq_bigr => r _; rewrite exchange_big.
Qed.
Lemma sum_bool2 k (f : 'I_k -> bool -> bool -> F) :
  \sum_(i < k) \sum_up \sum_up' f i up up' = \sum_up \sum_up' \sum_(i < k) f i up up'.
Proof.
by rewrite exchange_big /=; apply: eq_bigr => u _; rewrite exchange_big.
Qed.

Section Fock.
Variables (n : nat) (ca cb : arr F) (na nb : nat) (v : arr4 F) (m : nat) (g : nat -> arr F).
Hypothesis hn : (na <= n)%N.
Hypothesis hg : forall x, sym2 (g x).
Let occ i := nth 0%N (oidx n na nb) i.
Let V := with_dse v m g.

Lemma j_dse dm p q : sym2 dm ->
  get_j n v m g true dm p q = \sum_(r < n) \sum_(s < n) V p q r s * dm r s.
Proof.
move=> hd; rewrite /get_j /V /with_dse.
under [RHS]eq_bigr => r _ do under eq_bigr => s _ do rewrite mulrDl.
under [RHS]eq_bigr => r _ do rewrite big_split.
rewrite big_split /=; congr (_ + _).
  by apply: eq_bigr => r _; apply: eq_bigr => s _; rewrite (hd s r).
under [RHS]eq_bigr => r _ do (under eq_bigr => s _ do rewrite mulr_suml).
under [RHS]eq_bigr => r _ do rewrite exchange_big.
rewrite [RHS]exchange_big /=; apply: eq_bigr => x _; rewrite mulr_sumr; apply: eq_bigr => r _.
rewrite mulr_sumr; apply: eq_bigr => s _; by rewrite -mulrA [dm _ _ * _]mulrC.
Qed.
Lemma k_dse dm p q :
  get_k n v m g true dm p q = \sum_(r < n) \sum_(s < n) V p r s q * dm r s.
Proof.
rewrite /get_k /V /with_dse.
under [RHS]eq_bigr => r _ do under eq_bigr => s _ do rewrite mulrDl.
under [RHS]eq_bigr => r _ do rewrite big_split.
rewrite big_split /=; congr (_ + _).
under [RHS]eq_bigr => r _ do (under eq_bigr => s _ do rewrite mulr_suml).
under [RHS]eq_bigr => r _ do rewrite exchange_big.
rewrite [RHS]exchange_big /=; apply: eq_bigr => x _; apply: eq_bigr => r _.
rewrite mulr_sumr; apply: eq_bigr => s _; by rewrite -mulrA (hg x q s).
Qed.
Lemma dens_sym c k : sym2 (dens c k : arr F).
Proof. by move=> p q; apply: eq_bigr => i _; rewrite mulrC. Qed.

Lemma j_sum a b :
  \sum_(i < na + nb) coul n ca cb V a b (occ i) (occ i)
  = \sum_up \sum_(p < n) \sum_(q < n) so n ca cb a up p *
      (get_j n v m g true (pa ca na) p q + get_j n v m g true (pb cb nb) p q) * so n ca cb b up q.
Proof.
rewrite /coul sum_bool2; apply: eq_bigr => up _.
under eq_bigr => up' _ do rewrite (sum4 (fun i p q r s => V p q r s *
  (so n ca cb a up p * so n ca cb b up q * (so n ca cb (occ i) up' r * so n ca cb (occ i) up' s)))).
rewrite big_bool /= -big_split; apply: eq_bigr => p _; rewrite -big_split; apply: eq_bigr => q _ /=.
rewrite !j_dse; try exact: dens_sym.
rewrite mulrDr mulrDl; congr (_ + _);
  rewrite mulr_sumr mulr_suml; apply: eq_bigr => r _;
  rewrite mulr_sumr mulr_suml; apply: eq_bigr => s _; rewrite -!mulr_sumr;
  rewrite /occ (dens_so _ _ _ _ _ _ hn);
  set x := so _ _ _ a _ _; set y := so _ _ _ b _ _; set z := V _ _ _ _; set w := (X in z * (_ * X));
  by rewrite -/w mulrCA -!mulrA; congr (_ * _); rewrite mulrCA; congr (_ * _); rewrite mulrC.
Qed.
Lemma k_sum a b :
  \sum_(i < na + nb) coul n ca cb V a (occ i) (occ i) b
  = \sum_up \sum_(p < n) \sum_(q < n) so n ca cb a up p *
      (if up then get_k n v m g true (pa ca na) p q else get_k n v m g true (pb cb nb) p q)
      * so n ca cb b up q.
Proof.
rewrite /coul sum_bool2; apply: eq_bigr => up _.
rewrite (bigD1 up) //= [X in _ + X]big1 ?addr0 => [|up' hu]; last first.
  apply: big1 => i _; apply: big1 => p _; apply: big1 => q _; apply: big1 => r _; apply: big1 => s _.
  rewrite [X in _ * X](_ : _ = so n ca cb a up p *
    (so n ca cb (occ i) up q * so n ca cb (occ i) up' r) * so n ca cb b up' s); last by rewrite !mulrA.
  by rewrite so_cross 1?eq_sym // mulr0 mul0r mulr0.
rewrite (sum4 (fun i p q r s => V p q r s *
  (so n ca cb a up p * so n ca cb (occ i) up q * (so n ca cb (occ i) up r * so n ca cb b up s)))).
apply: eq_bigr => p _.
transitivity (\sum_(s < n) \sum_(q < n) \sum_(r < n) \sum_(i < na + nb) V p q r s *
    (so n ca cb a up p * so n ca cb (occ i) up q * (so n ca cb (occ i) up r * so n ca cb b up s))).
  by rewrite [RHS]exchange_big /=; apply: eq_bigr => q _; rewrite exchange_big.
apply: eq_bigr => s _.
have e (x : arr F) : x = (if up then pa ca na else pb cb nb) ->
  \sum_(q < n) \sum_(r < n) \sum_(i < na + nb) V p q r s *
    (so n ca cb a up p * so n ca cb (occ i) up q * (so n ca cb (occ i) up r * so n ca cb b up s))
  = so n ca cb a up p * get_k n v m g true x p s * so n ca cb b up s.
  move=> hx; rewrite k_dse mulr_sumr mulr_suml; apply: eq_bigr => q _.
  rewrite mulr_sumr mulr_suml; apply: eq_bigr => r _.
  rewrite hx -(dens_so ca cb nb up q r hn) !mulr_sumr mulr_suml; apply: eq_bigr => i _.
  rewrite /occ; set x1 := so _ _ _ a _ _; set y := so _ _ _ b _ _; set z := V _ _ _ _.
  set u := so _ _ _ _ _ _; set w := so _ _ _ _ _ _.
  by rewrite -[x1 * u * _]mulrA mulrCA !mulrA.
by rewrite (e (if up then pa ca na else pb cb nb)) //; case: (up).
Qed.

Lemma fock_so shift h oei a b :
  rot2 n (ctot n ca cb) (ctot n ca cb) (fock n ca cb na nb v m g true shift h oei) a b
  = one_so n ca cb (h_used shift h oei) a b + \sum_(i < na + nb) anti n ca cb V a (occ i) b (occ i).
Proof.
rewrite /fock (rotD _ _ _ (fun p q => block_diag n n _ _ p q + block_diag n n _ _ p q)
                 (fun p q => - block_diag n n _ _ p q)) rotN rotD !rot_bd.
rewrite -addrA; congr (_ + _); first by rewrite /one_so big_bool.
rewrite /anti sumrB; congr (_ - _); first by rewrite j_sum big_bool.
by rewrite k_sum big_bool.
Qed.

Lemma ptot_so p q : (p < n + n)%N -> (q < n + n)%N ->
  ptot n ca cb na nb p q = \sum_(i < na + nb) ctot n ca cb p (occ i) * ctot n ca cb q (occ i).
Proof.
have split_n k : (k < n + n)%N -> (k < n)%N \/ exists2 j, (j < n)%N & k = (n + j)%N.
  move=> hk; case: (ltnP k n) => h; [by left | right; exists (k - n)%N].
    by rewrite ltn_subLR. by rewrite subnKC.
have up k a : (k < n)%N -> ctot n ca cb k a = so n ca cb a true k.
  by move=> hk; rewrite -(ctot_up ca cb (Ordinal hk)).
move=> /split_n hp /split_n hq; rewrite /ptot.
case: hp => [hp|[p' hp ->]]; case: hq => [hq|[q' hq ->]].
- rewrite bd_ul // -(dens_so ca cb nb true p q hn); apply: eq_bigr => i _; by rewrite !up.
- rewrite bd_ur //; symmetry; apply: big1 => i _; by rewrite ctot_dn up // so_cross.
- rewrite bd_dl //; symmetry; apply: big1 => i _; by rewrite ctot_dn up // so_cross.
- rewrite bd_dr -(dens_so ca cb nb false p' q' hn); apply: eq_bigr => i _; by rewrite !ctot_dn.
Qed.
Lemma trace_occ X :
  trace2 (n + n) (ptot n ca cb na nb) X
  = \sum_(i < na + nb) rot2 n (ctot n ca cb) (ctot n ca cb) X (occ i) (occ i).
Proof.
rewrite /trace2 /rot2 exchange_big /= [RHS]exchange_big /=; apply: eq_bigr => p _.
rewrite [RHS]exchange_big /=; apply: eq_bigr => q _.
rewrite ptot_so ?ltn_ord // mulr_suml; apply: eq_bigr => i _.
by rewrite [_ * ctot n ca cb p _]mulrC -!mulrA; congr (_ * _); rewrite mulrC.
Qed.
Lemma ptot_sym : sym2 (ptot n ca cb na nb).
Proof.
move=> p q; rewrite /ptot /block_diag; case: (p < n)%N; case: (q < n)%N => //; exact: dens_sym.
Qed.

Lemma sum_occ (f : nat -> F) : \sum_(i <- oidx n na nb) f i = \sum_(i < na + nb) f (occ i).
Proof.
rewrite (big_nth 0%N) big_mkord /oidx size_cat !size_iota //.
Qed.
Lemma one_add h k a b :
  one_so n ca cb (fun p q => h p q + k p q) a b = one_so n ca cb h a b + one_so n ca cb k a b.
Proof.
rewrite /one_so -big_split; apply: eq_bigr => u _; rewrite -big_split; apply: eq_bigr => p _.
by rewrite -big_split; apply: eq_bigr => q _ /=; rewrite mulrDr mulrDl.
Qed.
Lemma one_scale c h a b :
  one_so n ca cb (fun p q => c * h p q) a b = c * one_so n ca cb h a b.
Proof.
rewrite /one_so mulr_sumr; apply: eq_bigr => u _; rewrite mulr_sumr; apply: eq_bigr => p _.
by rewrite mulr_sumr; apply: eq_bigr => q _ /=; rewrite !mulrA [c * _]mulrC.
Qed.
Lemma one_ext h k a b : (forall p q, h p q = k p q) -> one_so n ca cb h a b = one_so n ca cb k a b.
Proof.
by move=> e; apply: eq_bigr => u _; apply: eq_bigr => p _; apply: eq_bigr => q _; rewrite e.
Qed.
Lemma rot_one A a b :
  rot2 n (ctot n ca cb) (ctot n ca cb) (block_diag n n A A) a b = one_so n ca cb A a b.
Proof. by rewrite rot_bd /one_so big_bool. Qed.

Lemma energy_gen shift kept h oei enuc const :
  hf_energy n ca cb na nb v m g true shift kept h oei enuc const
  = 2%:R^-1 * ((\sum_(i <- oidx n na nb) one_so n ca cb (h_used shift h oei) i i)
               + (\sum_(i <- oidx n na nb) one_so n ca cb (h_after kept shift h oei) i i)
               + \sum_(i <- oidx n na nb) \sum_(j <- oidx n na nb) anti n ca cb V i j i j)
    + enuc + (if shift then const else 0).
Proof.
rewrite /hf_energy !trace_occ !sum_occ; do 2 congr (_ + _); congr (_ * _).
rewrite [RHS]addrAC -[X in _ = X + _]big_split /=; congr (_ + _); apply: eq_bigr => i _; last by rewrite rot_one.
by rewrite fock_so sum_occ.
Qed.
Lemma energy_right shift kept h oei enuc const : (2%:R : F) != 0 -> kept || shift ->
  hf_energy n ca cb na nb v m g true shift kept h oei enuc const
  = det_energy n ca cb (oidx n na nb) (h_used shift h oei) V
    + enuc + (if shift then const else 0).
Proof.
move=> h2 hk; rewrite energy_gen /det_energy; do 2 congr (_ + _).
have -> : h_after kept shift h oei = h_used shift h oei.
  by move: hk; rewrite /h_after; case: kept => //= ->.
set x := \sum_(i <- _) one_so _ _ _ _ i i.
by rewrite -[x + x]mulr2n mulrDr -[x *+ 2]mulr_natl mulKf.
Qed.
Lemma energy_half h oei enuc const : (2%:R : F) != 0 ->
  hf_energy n ca cb na nb v m g true false false h oei enuc const
  = det_energy n ca cb (oidx n na nb) (fun p q => h p q + oei p q) V
    - 2%:R^-1 * (\sum_(i <- oidx n na nb) one_so n ca cb oei i i) + enuc.
Proof.
move=> h2; rewrite energy_gen addr0 /det_energy; congr (_ + _).
rewrite /h_used /h_after mulrDr [RHS]addrAC; congr (_ + _).
have -> : \sum_(i <- oidx n na nb) one_so n ca cb (fun p q => h p q + oei p q) i i
  = (\sum_(i <- oidx n na nb) one_so n ca cb h i i) + \sum_(i <- oidx n na nb) one_so n ca cb oei i i.
  by rewrite -big_split; apply: eq_bigr => i _; rewrite one_add.
set x := \sum_(i <- _) _; set y := \sum_(i <- _) _.
apply: (mulfI h2); rewrite mulrBr !mulVKf //.
by rewrite [2%:R * _]mulr_natl mulr2n -[RHS]addrA addrK.
Qed.

(* electrons *)
Lemma trace_electrons S : (nb <= n)%N -> orthonormal n S ca -> orthonormal n S cb ->
  trace2 (n + n) (ptot n ca cb na nb) (block_diag n n S S) = (na + nb)%:R.
Proof.
move=> hb oa ob; rewrite trace_occ.
rewrite (eq_bigr (fun=> 1)) ?sumr_const ?card_ord // => i _.
rewrite rot_one /one_so big_bool /= /occ oidx_nth //; case: ltnP => hi.
  have hi' := leq_trans hi hn.
  rewrite [X in _ + X]big1 ?addr0 => [|p _]; last first.
    by apply: big1 => q _; rewrite /so hi' !mul0r.
  transitivity (((i : nat) == i)%:R : F); last by rewrite eqxx.
  by rewrite -oa //; apply: eq_bigr => p _; apply: eq_bigr => q _; rewrite /so hi'.
have hj : (i - na < nb)%N by rewrite ltn_subLR.
have e : (n + (i - na) < n)%N = false by rewrite ltnNge leq_addr.
rewrite [X in X + _]big1 ?add0r => [|p _]; last first.
  by apply: big1 => q _; rewrite /so e !mul0r.
transitivity (((i - na)%N == (i - na)%N)%:R : F); last by rewrite eqxx.
rewrite -ob ?(leq_trans hj hb) //; apply: eq_bigr => p _; apply: eq_bigr => q _.
by rewrite /so e addKn.
Qed.

(* coupling *)
Lemma gso_rot f x a b :
  rot2 n (ctot n ca cb) (ctot n ca cb) (gmatso n g f x) a b
  = one_so n ca cb (fun p q => g x p q * f x) a b.
Proof. exact: rot_one. Qed.
Lemma mfG_occ f x :
  mfG n ca cb na nb g f false x
  = \sum_(i <- oidx n na nb) one_so n ca cb (fun p q => g x p q * f x) i i.
Proof.
rewrite sum_occ /mfG; under [RHS]eq_bigr => i _ do rewrite -gso_rot.
rewrite -trace_occ /trace2 exchange_big /=; apply: eq_bigr => p _; apply: eq_bigr => q _.
by rewrite mulrC.
Qed.
Lemma xi_occ f w x : w x != 0 ->
  w x * xi n ca cb na nb g f w x
  = \sum_(i <- oidx n na nb) one_so n ca cb (fun p q => g x p q * f x) i i.
Proof.
move=> hw; rewrite /xi mulrC divfK // -mfG_occ /mfG.
by apply: eq_bigr => p _; apply: eq_bigr => q _; rewrite ptot_sym.
Qed.

Lemma g_fock_so f w shift h oei A B i j a b :
  (forall p, (p < n + n)%N -> A p i = ctot n ca cb p a) ->
  (forall p, (p < n + n)%N -> B p j = ctot n ca cb p b) ->
  g_fock n ca cb na nb v m g f w true shift h oei A B i j
  = one_so n ca cb (fun p q => if shift
       then h p q - 2%:R * \sum_(x < m) xi n ca cb na nb g f w x * (g x p q * f x)
       else h p q + oei p q) a b
    + \sum_(k <- oidx n na nb) anti n ca cb V a k b k.
Proof.
move=> hA hB; rewrite /g_fock (rot_ext _ hA hB) fock_so [in RHS]sum_occ addrAC; congr (_ + _).
case: shift; last by rewrite subr0.
rewrite (one_add h (fun p q => - (2%:R * _))); congr (_ + _).
rewrite (one_ext _ _ (k := fun p q => - 2%:R * \sum_(x < m) xi n ca cb na nb g f w x * (g x p q * f x)));
  last by move=> p q; rewrite mulNr.
rewrite one_scale mulNr; congr (- (_ * _)).
transitivity (\sum_(x < m) xi n ca cb na nb g f w x
                * one_so n ca cb (fun p q => g x p q * f x) a b).
  by apply: eq_bigr => x _; rewrite (rot_ext _ hA hB) gso_rot.
under eq_bigr => x _ do rewrite -one_scale.
rewrite /one_so exchange_big /=; apply: eq_bigr => u _; rewrite exchange_big /=.
apply: eq_bigr => p _; rewrite exchange_big /=; apply: eq_bigr => q _.
by rewrite mulr_sumr mulr_suml.
Qed.
End Fock.

Lemma h_calls_kept h oei k p q :
  h_calls true false h oei k p q = h p q + k%:R * oei p q :> F.
Proof.
elim: k => [|k IH]; first by rewrite mul0r addr0.
change (h_calls true false h oei k p q + oei p q = h p q + k.+1%:R * oei p q).
by rewrite IH -addrA mulrSr mulrDl mul1r.
Qed.

Lemma cancel6 (W : zmodType) (p q u k y : W) :
  p + q = p + u + k + (q + y - u - (k + k)) - y + k.
Proof.
rewrite opprD -!addrA; congr (p + _); rewrite (addrCA k q) (addrCA u q).
rewrite -[LHS]addr0; congr (q + _); symmetry.
rewrite (addrCA y (- u)) (addrCA k (- u)) addNKr.
by rewrite (addrCA y (- k)) addNKr (addrCA (- k) (- y)) addNKr addNr.
Qed.
Lemma shift_exact (A : algType F) m (w xi : nat -> F) (G b bd : nat -> A) :
  polaritons m w G b bd
  = polaritons m w (fun x => G x - (w x * xi x)%:A) (fun x => b x + (xi x)%:A)
      (fun x => bd x + (xi x)%:A)
    - 2%:R *: (\sum_(x < m) xi x *: G x) + (\sum_(x < m) w x * xi x ^+ 2)%:A.
Proof.
rewrite /polaritons scaler_sumr scaler_suml -sumrB -big_split; apply: eq_bigr => x _ /=.
set c := xi x; set B := b x; set D := bd x; set K := G x; set r := w x.
have e1 : r *: ((D + c%:A) * (B + c%:A))
  = r *: (D * B) + (r * c) *: (B + D) + (r * c ^+ 2)%:A.
  rewrite mulrDl !mulrDr !mulr_algl !mulr_algr !scalerDr !scalerA.
  by rewrite -!addrA; congr (_ + _); rewrite addrCA; congr (_ + (_ + _)); rewrite mulrA.
have e2 : (K - (r * c)%:A) * (B + c%:A + (D + c%:A))
  = K * (B + D) + (2%:R * c) *: K - (r * c) *: (B + D) - ((r * c ^+ 2)%:A + (r * c ^+ 2)%:A).
  have e : c%:A + c%:A = (2%:R * c)%:A :> A by rewrite -scalerDl mulr_natl mulr2n.
  rewrite addrACA e mulrBl mulr_algl scalerDr [K * _]mulrDr mulr_algr -[RHS]addrA -opprD.
  by congr (_ - (_ + _)); rewrite scalerA -scalerDl; congr (_ *: _); rewrite mulrCA mulr_natl mulr2n expr2 mulrA.
by rewrite e1 e2 scalerA -cancel6.
Qed.
End P.

Section Fci.
Variables (F : fieldType) (n m : nat).
Lemma fci_squares (A : algType F) (hat : {linear 'M[F]_n -> A}) (C h : 'M[F]_n) (g : 'I_m -> 'M[F]_n) :
  normal_ordered hat (fci_hcore C h g) (fun x => ao2mo C (g x))
  = with_squares hat (ao2mo C h) (fun x => ao2mo C (g x)).
Proof.
rewrite /normal_ordered /with_squares /fci_hcore linearD linearZ linear_sum -addrA -scalerDr.
by rewrite -big_split; congr (_ + _ *: _); apply: eq_bigr => x _; rewrite /= addrC subrK.
Qed.
Lemma fci_trace (C S D : 'M[F]_n) : C^T *m S *m C = 1%:M ->
  \tr (fci_dm0 C S D) = \tr (D *m (C *m C^T)).
Proof.
move=> h; rewrite /fci_dm0 /ao2mo h mul1mx -mulmxA mxtrace_mulC -mulmxA.
by [].
Qed.
End Fci.

Section Dip.
Variables (F : fieldType) (n natom : nat).
Implicit Types (P r S : 'M[F]_n) (Z R : 'I_natom -> F).
Lemma expect_dip P r S nuc Z R os :
  expect P (dipole_ao r S nuc Z R os) = origin nuc Z R os * expect P S - expect P r.
Proof.
rewrite /expect /dipole_ao opprB mulmxBr -scalemxAr.
by rewrite linearB linearZ.
Qed.
Lemma center_shift Z R t : \sum_i Z i != 0 ->
  charge_center Z (fun i => R i + t) = charge_center Z R + t.
Proof.
move=> hz; rewrite /charge_center.
under eq_bigr => i _ do rewrite mulrDr.
by rewrite big_split /= -mulr_suml mulrDl [_ * t]mulrC mulfK.
Qed.
End Dip.
