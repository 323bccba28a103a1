(** Proofs for the mean-field quantities of the Hubbard and Hubbard-Holstein
    chains. *)
From mathcomp Require Import all_ssreflect all_algebra.
From Verif Require Import LinProofs HubModel.
Set Implicit Arguments.
Unset Strict Implicit.
Unset Printing Implicit Defensive.
Import GRing.Theory Num.Theory.
Local Open Scope ring_scope.

Section Abs.
Variables (R : Type) (rO rI : R) (radd rmul rsub : R -> R -> R) (ropp : R -> R).
Variable rt : ring_theory rO rI radd rmul rsub ropp (@eq R).
Add Ring absr : rt.
Local Notation "a + b" := (radd a b). Local Notation "a * b" := (rmul a b). Local Notation "a - b" := (rsub a b).
Lemma grad_arith h a b a' b' U s t t' r c c1 c2 :
  a + h * a' + (b + h * b') + U * (s + h * (t + t') + h * h * r) - (c + h * ((rI + rI) * c1) + h * h * c2) =
  a + b + U * s - c + h * (a' + U * t + (b' + U * t') - (rI + rI) * c1) + h * h * (U * r - c2).
Proof. ring. Qed.
Lemma sq_arith h w x y : w * ((x + h * y) * (x + h * y)) = w * (x * x) + h * ((rI + rI) * (w * x * y)) + h * h * (w * (y * y)).
Proof. ring. Qed.
Lemma pr_arith h x y x' y' : (x + h * x') * (y + h * y') = x * y + h * (x' * y + y' * x) + h * h * (x' * y').
Proof. ring. Qed.
Lemma en_arith a b X : a + X + (b + X) + (a + b) = a + b + X + (a + b + X).
Proof. ring. Qed.
Lemma p4_arith v a b c d : v * a * b * c * d = v * c * d * a * b.
Proof. ring. Qed.
Lemma ab_arith U cip cir ciq o : U * (ciq * ciq * o) * cip * cir = U * cip * ciq * cir * ciq * o.
Proof. ring. Qed.
Lemma ba_arith U cip cir ciq o : U * (ciq * ciq * o) * cip * cir = U * ciq * cip * ciq * cir * o.
Proof. ring. Qed.
End Abs.

Section Hub.
Variables (F : realFieldType) (L : nat).
Local Notation M := 'M[F]_L.
Local Notation half := (2%:R^-1 : F).

Definition idx (s : bool) (i : 'I_L) : 'I_(L + L) := if s then rshift L i else lshift L i.
Local Arguments idx : simpl never.
Lemma idx_eq s i t j : (idx s i == idx t j) = (s == t) && (i == j).
Proof.
case: s; case: t; rewrite /idx /= ?eq_rshift ?eq_lshift ?eq_rlshift ?eq_lrshift //.
Qed.
Lemma sum_idx (f : 'I_(L + L) -> F) : \sum_p f p = (\sum_i f (idx false i)) + \sum_i f (idx true i).
Proof. by rewrite big_split_ord. Qed.

Lemma umat_idx U a b c d i j k l : umat U (idx a i) (idx b j) (idx c k) (idx d l) =
  if [&& a == c, b == d, i == j, j == k & k == l] then U else 0 :> F.
Proof.
rewrite /umat; congr (if _ then _ else _).
apply/existsP/idP.
- case=> x; rewrite -!/(idx true x) -!/(idx false x) !idx_eq.
  case: (i =P x) => [->|_]; case: (j =P x) => [->|_]; case: (k =P x) => [->|_]; case: (l =P x) => [->|_];
  by rewrite ?andbF ?eqxx; case: a; case: b; case: c; case: d.
- case/and5P => /eqP <- /eqP <- /eqP <- /eqP <- /eqP <-; exists i.
  rewrite -!/(idx true i) -!/(idx false i) !idx_eq eqxx.
  by case: a; case: b.
Qed.

Lemma bd_idx (A B : M) a b i j : block_diag A B (idx a i) (idx b j) =
  if a == b then (if a then B i j else A i j) else 0.
Proof.
by case: a; case: b; rewrite /block_diag /idx /= ?block_mxEul ?block_mxEur ?block_mxEdl ?block_mxEdr ?mxE.
Qed.
Lemma idxP (p : 'I_(L + L)) : exists s i, p = idx s i.
Proof. by case: (split_ordP p) => i ->; [exists false, i | exists true, i]. Qed.

Lemma sum0 (I : finType) (f : I -> F) : (forall i, f i = 0) -> \sum_i f i = 0.
Proof. by move=> h; rewrite big1. Qed.
Lemma sum_one (i : 'I_L) (f : 'I_L -> F) : (forall j, j != i -> f j = 0) -> \sum_j f j = f i.
Proof. by move=> h; rewrite (bigD1 i) //= big1 ?addr0. Qed.

Definition dg (U : F) (p : M) : M := \matrix_(i, j) if i == j then U * p i i else 0.

Lemma jkE U (pa pb : M) : jk U (block_diag pa pb) = block_diag (dg U pb) (dg U pa).
Proof.
apply/matrixP=> p q; case: (idxP p) => a [i ->]; case: (idxP q) => b [j ->].
rewrite bd_idx mxE sum_idx.
under eq_bigr do rewrite sum_idx.
under [X in _ + X]eq_bigr do rewrite sum_idx.
rewrite /anti.
case E: (a == b); last first.
  rewrite !sum0 ?addr0 // => r; rewrite !sum0 ?addr0 // => s;
  rewrite !umat_idx !bd_idx; move: E; case: a; case: b => //=; rewrite ?subr0 ?subrr ?mulr0 ?mul0r //.
move/eqP: E => <-{b}.
have key (c : M) : \sum_r \sum_s ((if [&& i == r, r == j & j == s] then U else 0) - 0) * c r s = (dg U c) i j.
  rewrite (sum_one (i := i)) => [|r hr]; last by apply: sum0 => s; rewrite eq_sym (negbTE hr) /= subr0 mul0r.
  rewrite (sum_one (i := i)) => [|s hs]; last first.
    by rewrite eqxx subr0 /=; case: (i =P j) => [<-|_] /=; rewrite ?mul0r // eq_sym (negbTE hs) mul0r.
  by rewrite eqxx subr0 mxE /=; case: (i =P j) => [<-|_] /=; rewrite ?eqxx ?mul0r.
have same (c : M) : \sum_r \sum_s ((if [&& i == r, r == j & j == s] then U else 0) - (if [&& i == r, r == s & s == j] then U else 0)) * c r s = 0.
  apply: sum0 => r; apply: sum0 => s.
  case: (i == r) => /=; last by rewrite subrr mul0r.
  have -> : ((r == j) && (j == s)) = ((r == s) && (s == j)).
    by apply/andP/andP => [[/eqP -> /eqP ->] | [/eqP -> /eqP ->]].
  by rewrite subrr mul0r.
have val c d : \sum_r \sum_s (umat U (idx a i) (idx c r) (idx a j) (idx d s) - umat U (idx a i) (idx c r) (idx d s) (idx a j))
    * block_diag pa pb (idx c r) (idx d s) =
    if c == d then (if c == a then 0 else dg U (if c then pb else pa) i j) else 0.
  under eq_bigr do under eq_bigr do rewrite !umat_idx bd_idx.
  case: (c =P d) => [<-|_]; last by apply: sum0 => r; apply: sum0 => s; rewrite mulr0.
  rewrite eqxx; case: (c =P a) => [->|/eqP h].
  - by rewrite eqxx; case: (a); apply: same.
  - by rewrite [a == c]eq_sym (negbTE h) /=; case: (c); apply: key.
by rewrite !big_split /= !val; case: (a); rewrite /= ?addr0 ?add0r.
Qed.

Lemma fockE T U (pa pb : M) : fock T U pa pb = block_diag (T + dg U pb) (T + dg U pa).
Proof. by rewrite /fock jkE /block_diag add_block_mx !addr0. Qed.

Lemma dot2E n (A B : 'M[F]_n) : dot2 A B = \tr (A *m B).
Proof. by rewrite /mxtrace; apply: eq_bigr => i _; rewrite mxE. Qed.
Lemma dot2_bd (A B A' B' : M) : dot2 (block_diag A B) (block_diag A' B') = dot2 A A' + dot2 B B'.
Proof. by rewrite !dot2E /block_diag mulmx_block !mulmx0 !mul0mx !addr0 !add0r mxtrace_block. Qed.
Lemma dot2Dr n (A B C : 'M[F]_n) : dot2 A (B + C) = dot2 A B + dot2 A C.
Proof. by rewrite !dot2E mulmxDr raddfD. Qed.
Lemma dot2Dl n (A B C : 'M[F]_n) : dot2 (A + B) C = dot2 A C + dot2 B C.
Proof. by rewrite !dot2E mulmxDl raddfD. Qed.
Lemma dot2Zl n h (A B : 'M[F]_n) : dot2 (h *: A) B = h * dot2 A B.
Proof. by rewrite !dot2E -scalemxAl mxtraceZ. Qed.
Lemma dot2Zr n h (A B : 'M[F]_n) : dot2 A (h *: B) = h * dot2 A B.
Proof. by rewrite !dot2E -scalemxAr mxtraceZ. Qed.
Lemma dot2_dg U (p q : M) : dot2 p (dg U q) = U * \sum_i p i i * q i i.
Proof.
rewrite /dot2 mulr_sumr; apply: eq_bigr => i _.
rewrite (sum_one (i := i)) => [|j hj]; last by rewrite mxE (negbTE hj) mulr0.
by rewrite mxE eqxx mulrCA.
Qed.
Lemma half_twice (x : F) : half * (x + x) = x.
Proof. by rewrite -mulr2n -[x *+ 2]mulr_natl mulrA mulVf ?mul1r ?pnatr_eq0. Qed.
Lemma dsum_sym (p q : M) : \sum_i p i i * q i i = \sum_i q i i * p i i.
Proof. by apply: eq_bigr => i _; rewrite mulrC. Qed.

Lemma hub_energy T U (pa pb : M) :
  hf_energy T U pa pb = dot2 T pa + dot2 T pb + U * \sum_i pa i i * pb i i.
Proof.
rewrite /hf_energy fockE !dot2_bd !dot2Dr !dot2_dg (dsum_sym pb pa).
set X := U * _; rewrite -[RHS]half_twice; congr (_ * _).
have c (A B : M) : dot2 A B = dot2 B A by rewrite !dot2E mxtrace_mulC.
rewrite (c T pa) (c T pb); set a := dot2 pa T; set b := dot2 pb T.
exact: (en_arith (frt F)).
Qed.

Lemma xi_site g w shift (pa pb : M) I : w != 0 ->
  xi shift w (gmat0 g) (block_diag pa pb) I = if shift then g * (pa I I + pb I I) / w else 0.
Proof.
move=> hw; rewrite /xi; case: shift => //; congr (_ / _).
rewrite sum_idx mulrDr; congr (_ + _).
- rewrite (sum_one (i := I)) => [|i hi]; last first.
    by apply: sum0 => b; rewrite mxE -/(idx false I) -/(idx true I) !idx_eq (negbTE hi) /= ?andbF mul0r.
  rewrite sum_idx [X in _ + X]sum0 ?addr0; last first.
    by move=> b; rewrite mxE -/(idx false I) -/(idx true I) !idx_eq /= ?andbF mul0r.
  rewrite (sum_one (i := I)) => [|i hi]; last first.
    by rewrite mxE -/(idx false I) -/(idx true I) !idx_eq (negbTE hi) /= ?andbF mul0r.
  by rewrite mxE -/(idx false I) -/(idx true I) !idx_eq !eqxx bd_idx.
- rewrite (sum_one (i := I)) => [|i hi]; last first.
    by apply: sum0 => b; rewrite mxE -/(idx false I) -/(idx true I) !idx_eq (negbTE hi) /= ?andbF mul0r.
  rewrite sum_idx [X in X + _]sum0 ?add0r; last first.
    by move=> b; rewrite mxE -/(idx false I) -/(idx true I) !idx_eq /= ?andbF mul0r.
  rewrite (sum_one (i := I)) => [|i hi]; last first.
    by rewrite mxE -/(idx false I) -/(idx true I) !idx_eq (negbTE hi) /= ?andbF mul0r.
  by rewrite mxE -/(idx false I) -/(idx true I) !idx_eq !eqxx bd_idx.
Qed.

Lemma sq_div (x w : F) : w != 0 -> w * (x / w) ^+ 2 = x ^+ 2 / w.
Proof. by move=> hw; rewrite expr_div_n expr2 [w ^+ 2]expr2 invfM mulrCA; congr (_ * _); rewrite mulrA mulfV ?mul1r. Qed.

Lemma hh_energyE T U w g (shift : bool) (pa pb : M) : w != 0 ->
  hh_energy T U w (gmat0 g) shift pa pb =
  dot2 T pa + dot2 T pb + U * (\sum_i pa i i * pb i i)
  - (if shift then \sum_I (g * (pa I I + pb I I)) ^+ 2 / w else 0).
Proof.
move=> hw; rewrite /hh_energy -/(hf_energy T U pa pb) hub_energy; congr (_ + _).
rewrite /hh_const; case: shift; last by rewrite oppr0.
congr (- _); apply: eq_bigr => I _; rewrite xi_site // sq_div //.
Qed.

(** gradient *)
Definition gdot (g P : 'M[F]_(L + L)) : F := \sum_a \sum_b g a b * P a b.
Lemma gdotD g P Q : gdot g (P + Q) = gdot g P + gdot g Q.
Proof.
rewrite /gdot -big_split; apply: eq_bigr => a _; rewrite -big_split; apply: eq_bigr => b _.
by rewrite mxE mulrDr.
Qed.
Lemma gdotZ g h P : gdot g (h *: P) = h * gdot g P.
Proof.
rewrite /gdot mulr_sumr; apply: eq_bigr => a _; rewrite mulr_sumr; apply: eq_bigr => b _.
by rewrite mxE mulrCA.
Qed.
Lemma gdot_sym g P : g^T = g -> dot2 P g = gdot g P.
Proof.
move=> h; rewrite /dot2 /gdot; apply: eq_bigr => a _; apply: eq_bigr => b _.
by rewrite -[in LHS]h mxE mulrC.
Qed.
Lemma bdD (A B C D : M) : block_diag (A + C) (B + D) = block_diag A B + block_diag C D.
Proof. by rewrite /block_diag add_block_mx !addr0. Qed.
Lemma bdZ h (A B : M) : block_diag (h *: A) (h *: B) = h *: block_diag A B.
Proof. by rewrite /block_diag scale_block_mx !scaler0. Qed.
Lemma dot2_suml n (P : 'M[F]_n) (c : 'I_L -> F) (g : 'I_L -> 'M[F]_n) :
  dot2 P (\sum_I c I *: g I) = \sum_I c I * dot2 P (g I).
Proof.
rewrite dot2E mulmx_sumr raddf_sum; apply: eq_bigr => I _ /=.
by rewrite -scalemxAr mxtraceZ dot2E.
Qed.


Lemma hh_grad T U w (gm : 'I_L -> 'M[F]_(L + L)) (shift : bool) (pa pb da db : M) : w != 0 ->
  (forall I, (gm I)^T = gm I) -> exists R, forall h,
  hh_energy T U w gm shift (pa + h *: da) (pb + h *: db) =
  hh_energy T U w gm shift pa pb + h * dot2 (block_diag da db) (hh_fock T U w gm shift pa pb) + h ^+ 2 * R.
Proof.
move=> hw hs.
set D := block_diag da db; set P := block_diag pa pb.
exists (U * (\sum_i da i i * db i i) - (if shift then \sum_I w * (gdot (gm I) D / w) ^+ 2 else 0)) => h.
rewrite /hh_energy -!/(hf_energy T U _ _) !hub_energy bdD bdZ -/D -/P.
rewrite /hh_fock fockE.
have -> : dot2 D (block_diag (T + dg U pb) (T + dg U pa) - 2%:R *: (\sum_I xi shift w gm P I *: gm I))
   = dot2 T da + U * (\sum_i da i i * pb i i) + (dot2 T db + U * (\sum_i db i i * pa i i))
     - 2%:R * (\sum_I xi shift w gm P I * gdot (gm I) D).
  rewrite -scaleNr dot2Dr dot2Zr dot2_suml mulNr /D dot2_bd !dot2Dr !dot2_dg.
  have c (A B : M) : dot2 A B = dot2 B A by rewrite !dot2E mxtrace_mulC.
  rewrite (c da T) (c db T); congr (_ - _ * _); apply: eq_bigr => I _; by rewrite gdot_sym.
have cc (A B : M) x : dot2 T (A + x *: B) = dot2 T A + x * dot2 T B by rewrite dot2Dr dot2Zr.
rewrite !cc.
have -> : \sum_i (pa + h *: da) i i * (pb + h *: db) i i =
   (\sum_i pa i i * pb i i) + h * ((\sum_i da i i * pb i i) + (\sum_i db i i * pa i i)) + h * h * (\sum_i da i i * db i i).
  rewrite -big_split !mulr_sumr -!big_split; apply: eq_bigr => i _; rewrite !mxE; exact: (pr_arith (frt F)).
have -> : hh_const shift w gm (P + h *: D) =
   - ((if shift then \sum_I w * (xi shift w gm P I * xi shift w gm P I) else 0)
      + h * ((1 + 1) * (\sum_I xi shift w gm P I * gdot (gm I) D)) + h * h * (if shift then \sum_I w * (gdot (gm I) D / w) ^+ 2 else 0)).
  rewrite /hh_const; case: shift; last first.
    by rewrite /xi big1 ?mulr0 ?addr0 ?oppr0 // => I _; rewrite mul0r.
  congr (- _); rewrite !mulr_sumr -!big_split; apply: eq_bigr => I _ /=.
  rewrite /xi -!/(gdot _ _) gdotD gdotZ [(_ + _) / w]mulrDl -[h * _ / w]mulrA !expr2.
  apply: (etrans (sq_arith (frt F) h w _ _)).
  do 2! congr (_ + _); congr (_ * (_ * _)).
  by rewrite [w * _]mulrC -!mulrA; congr (_ * _); congr (_ * _); rewrite mulrC -mulrA mulVf ?mulr1.
have -> : hh_const shift w gm P = - (if shift then \sum_I w * (xi shift w gm P I * xi shift w gm P I) else 0).
  by rewrite /hh_const; case: shift; rewrite ?oppr0 //; congr (- _); apply: eq_bigr => I _; rewrite expr2.
rewrite expr2; exact: (grad_arith (frt F)).
Qed.

Lemma gmat0_sym (g : F) (I : 'I_L) : (gmat0 g I)^T = gmat0 g I.
Proof. by apply/matrixP => a b; rewrite !mxE andbC [X in _ || X]andbC. Qed.

(** electron count *)
Lemma tr_dens (c : M) k : c^T *m c = 1%:M -> (k <= L)%N -> \tr (dens c k) = k%:R.
Proof.
move=> hc hk; rewrite /mxtrace.
under eq_bigr do rewrite mxE.
rewrite exchange_big /=.
have e (i : 'I_L) : \sum_(a < L) c a i * c a i = 1.
  have := congr1 (fun A : M => A i i) hc; rewrite !mxE eqxx mulr1n => e.
  by rewrite -[RHS]e; apply: eq_bigr => a _; rewrite mxE.
rewrite (eq_bigr (fun _ => 1)) => [|i _]; last exact: e.
rewrite sumr_const; congr (_ %:R).
rewrite -sum1_card (eq_bigl (fun i : 'I_L => (i < k)%N)) //.
by rewrite (big_ord_narrow hk) /= sum1_card card_ord.
Qed.
Lemma hub_count (ca cb : M) N : ca^T *m ca = 1%:M -> cb^T *m cb = 1%:M -> (hub_na N <= L)%N ->
  \tr (dens ca (hub_na N)) + \tr (dens cb (hub_nb N)) = N%:R.
Proof.
move=> ha hb hN.
have h : (N %/ 2 <= N)%N by apply: leq_div.
have hb2 : (hub_nb N <= hub_na N)%N.
  by rewrite /hub_nb /hub_na leq_subRL // addnn -muln2 leq_trunc_div.
rewrite !tr_dens //; last exact: leq_trans hb2 hN.
by rewrite -natrD /hub_na /hub_nb subnK.
Qed.
Lemma hh_count (ca cb : M) N : ca^T *m ca = 1%:M -> cb^T *m cb = 1%:M -> (N %/ 2 <= L)%N ->
  \tr (dens ca (hh_na N)) + \tr (dens cb (hh_nb N)) = (N - odd N)%:R.
Proof.
move=> ha hb hN; rewrite !tr_dens // -natrD /hh_na /hh_nb addnn.
by rewrite divn2 -[X in (X - _)%N](odd_double_half N) addKn.
Qed.

(** antisymmetry *)
Lemma exch4 n (f : 'I_n -> 'I_n -> 'I_n -> 'I_n -> F) :
  \sum_p \sum_q \sum_r \sum_s f p q r s = \sum_r \sum_s \sum_p \sum_q f p q r s.
Proof.
under eq_bigr do rewrite exchange_big /=.
rewrite exchange_big /=; apply: eq_bigr => r _.
under eq_bigr do rewrite exchange_big /=.
by rewrite exchange_big.
Qed.
Lemma trans4_swap12 n (V : 'I_n -> 'I_n -> 'I_n -> 'I_n -> F) C w x y z :
  (forall p q r s, V p q r s = - V q p r s) -> trans4 V C C C C w x y z = - trans4 V C C C C x w y z.
Proof.
move=> h; rewrite /trans4 exchange_big -sumrN; apply: eq_bigr => q _.
rewrite -sumrN; apply: eq_bigr => p _; rewrite -sumrN; apply: eq_bigr => r _; rewrite -sumrN; apply: eq_bigr => s _.
by rewrite h !mulNr; congr (- (_ * _ * _)); rewrite -!mulrA; congr (_ * _); rewrite mulrC.
Qed.
Lemma trans4_swap34 n (V : 'I_n -> 'I_n -> 'I_n -> 'I_n -> F) C w x y z :
  (forall p q r s, V p q r s = - V p q s r) -> trans4 V C C C C w x y z = - trans4 V C C C C w x z y.
Proof.
move=> h; rewrite /trans4 -sumrN; apply: eq_bigr => p _.
rewrite -sumrN; apply: eq_bigr => q _; rewrite exchange_big -sumrN; apply: eq_bigr => s _; rewrite -sumrN; apply: eq_bigr => r _.
by rewrite h !mulNr; congr (- _); rewrite -!mulrA; do 3! congr (_ * _); rewrite mulrC.
Qed.
Lemma trans4_pairs n (V : 'I_n -> 'I_n -> 'I_n -> 'I_n -> F) C w x y z :
  (forall p q r s, V p q r s = V r s p q) -> trans4 V C C C C w x y z = trans4 V C C C C y z w x.
Proof.
move=> h; rewrite /trans4 exch4; apply: eq_bigr => r _; apply: eq_bigr => s _; apply: eq_bigr => p _; apply: eq_bigr => q _.
rewrite h; exact: (p4_arith (frt F)).
Qed.
Lemma umat_swap U (p q r s : 'I_(L + L)) : umat U p q r s = umat U q p s r :> F.
Proof.
case: (idxP p) => a [i ->]; case: (idxP q) => b [j ->]; case: (idxP r) => c [k ->]; case: (idxP s) => d [l ->].
rewrite !umat_idx; congr (if _ then _ else _).
apply/and5P/and5P => -[/eqP-> /eqP-> /eqP-> /eqP-> /eqP->]; by rewrite !eqxx.
Qed.
Lemma umat_pairs U (p q r s : 'I_(L + L)) : umat U p q r s = umat U r s p q :> F.
Proof.
case: (idxP p) => a [i ->]; case: (idxP q) => b [j ->]; case: (idxP r) => c [k ->]; case: (idxP s) => d [l ->].
rewrite !umat_idx; congr (if _ then _ else _).
apply/and5P/and5P => -[/eqP-> /eqP-> /eqP-> /eqP-> /eqP->]; by rewrite !eqxx.
Qed.
Lemma ua_anti12 U (ca cb : M) w x y z : ua_mo U ca cb w x y z = - ua_mo U ca cb x w y z.
Proof. by apply: trans4_swap12 => p q r s; rewrite /anti opprB umat_swap (umat_swap U p q s r). Qed.
Lemma ua_anti34 U (ca cb : M) w x y z : ua_mo U ca cb w x y z = - ua_mo U ca cb w x z y.
Proof. by apply: trans4_swap34 => p q r s; rewrite /anti opprB. Qed.
Lemma ua_pairs U (ca cb : M) w x y z : ua_mo U ca cb w x y z = ua_mo U ca cb y z w x.
Proof.
apply: trans4_pairs => p q r s; rewrite /anti umat_pairs (umat_pairs U p q s r); congr (_ - _).
by rewrite umat_swap.
Qed.


(** orbital-basis Fock matrices *)
Lemma trans4_umatS U (c1 c2 c3 c4 : M) w x y z :
  trans4 (umatS U) c1 c2 c3 c4 w x y z = \sum_i U * c1 i w * c2 i x * c3 i y * c4 i z.
Proof.
rewrite /trans4; apply: eq_bigr => p _.
rewrite (sum_one (i := p)) => [|q hq]; last first.
  by apply: sum0 => r; apply: sum0 => s; rewrite /umatS eq_sym (negbTE hq) !mul0r.
rewrite (sum_one (i := p)) => [|r hr]; last first.
  by apply: sum0 => s; rewrite /umatS [p == r]eq_sym (negbTE hr) andbF !mul0r.
rewrite (sum_one (i := p)) => [|s hs]; last by rewrite /umatS [p == s]eq_sym (negbTE hs) !andbF !mul0r.
by rewrite /umatS !eqxx.
Qed.
Lemma va_zero U (c : M) w x y z : va_mo U c w x y z = 0.
Proof.
rewrite /va_mo /trans4; apply: sum0 => p; apply: sum0 => q; apply: sum0 => r; apply: sum0 => s.
rewrite /anti /umatS.
have -> : [&& p == q, q == r & r == s] = [&& p == q, q == s & s == r].
  by apply/and3P/and3P => -[/eqP-> /eqP-> /eqP->].
by rewrite subrr !mul0r.
Qed.
Lemma dens_diag (c : M) k i : dens c k i i = \sum_q c i q * c i q * occ F k q.
Proof.
rewrite mxE big_mkcond; apply: eq_bigr => q _; rewrite /occ.
by case: ifP => _; rewrite ?mulr1 ?mulr0.
Qed.
Lemma fock_block (T d c : M) (p r : 'I_L) (x : 'I_L -> F) (U : F) : (forall i j, d i j = if i == j then U * x i else 0) ->
  \sum_i \sum_j c i p * (T + d) i j * c j r =
  (\sum_i \sum_j T i j * c i p * c j r) + \sum_i U * x i * c i p * c i r.
Proof.
move=> hd; rewrite -big_split; apply: eq_bigr => i _ /=.
have -> : U * x i * c i p * c i r = \sum_j d i j * c i p * c j r.
  rewrite (sum_one (i := i)) => [|j hj]; last by rewrite hd eq_sym (negbTE hj) !mul0r.
  by rewrite hd eqxx.
by rewrite -big_split; apply: eq_bigr => j _ /=; rewrite mxE mulrDr !mulrDl ![c i p * _]mulrC.
Qed.
Lemma g_fock_idx T U (ca cb : M) na nb a b i j :
  g_fock T U ca cb na nb (idx a i) (idx b j) =
  if a == b then \sum_p \sum_q (if a then cb else ca) p i *
      (if a then T + dg U (dens ca na) else T + dg U (dens cb nb)) p q * (if a then cb else ca) q j else 0.
Proof.
rewrite mxE fockE sum_idx.
under eq_bigr do rewrite sum_idx.
under [X in _ + X]eq_bigr do rewrite sum_idx.
rewrite !big_split /=.
have val c d : \sum_p \sum_q block_diag ca cb (idx c p) (idx a i) *
    block_diag (T + dg U (dens cb nb)) (T + dg U (dens ca na)) (idx c p) (idx d q) * block_diag ca cb (idx d q) (idx b j) =
    if [&& c == a, c == d & d == b] then \sum_p \sum_q (if a then cb else ca) p i *
      (if a then T + dg U (dens ca na) else T + dg U (dens cb nb)) p q * (if a then cb else ca) q j else 0.
  case: (c =P a) => [->|hc] /=; last first.
    by apply: sum0 => p; apply: sum0 => q; rewrite [X in X * _ * _]bd_idx; case: eqP => // _; rewrite !mul0r.
  case: (a =P d) => [<-|hc] /=; last first.
    by apply: sum0 => p; apply: sum0 => q; rewrite [X in _ * X * _]bd_idx; case: eqP => // _; rewrite mulr0 !mul0r.
  case: (a =P b) => [<-|hc] /=; last first.
    by apply: sum0 => p; apply: sum0 => q; rewrite [X in _ * X]bd_idx; case: eqP => // _; rewrite mulr0.
  by apply: eq_bigr => p _; apply: eq_bigr => q _; rewrite !bd_idx eqxx; case: (a).
by rewrite !val; case: (a); case: (b); rewrite /= ?addr0 ?add0r.
Qed.
Lemma u_fock_aE T U (ca cb : M) na nb p r :
  g_fock T U ca cb na nb (lshift L p) (lshift L r) = u_fock_a T U ca cb na nb p r.
Proof.
rewrite -/(idx false p) -/(idx false r) g_fock_idx eqxx /=.
rewrite (fock_block T ca p r (x := fun i => dens cb nb i i) (U := U)); last by move=> i j; rewrite mxE.
rewrite mxE -addrA; congr (_ + _).
rewrite [X in _ = X + _]sum0 ?add0r; last by move=> q; rewrite va_zero mul0r.
under [RHS]eq_bigr do rewrite /vab_mo trans4_umatS mulr_suml.
rewrite exchange_big /=; apply: eq_bigr => i _.
rewrite dens_diag mulr_sumr !mulr_suml; apply: eq_bigr => q _.
exact: (ab_arith (frt F)).
Qed.
Lemma u_fock_bE T U (ca cb : M) na nb p r :
  g_fock T U ca cb na nb (rshift L p) (rshift L r) = u_fock_b T U ca cb na nb p r.
Proof.
rewrite -/(idx true p) -/(idx true r) g_fock_idx eqxx /=.
rewrite (fock_block T cb p r (x := fun i => dens ca na i i) (U := U)); last by move=> i j; rewrite mxE.
rewrite mxE -addrA; congr (_ + _).
rewrite [X in _ = X + _]sum0 ?add0r; last by move=> q; rewrite va_zero mul0r.
under [RHS]eq_bigr do rewrite /vab_mo trans4_umatS mulr_suml.
rewrite exchange_big /=; apply: eq_bigr => i _.
rewrite dens_diag mulr_sumr !mulr_suml; apply: eq_bigr => q _.
exact: (ba_arith (frt F)).
Qed.
Lemma g_fock_offdiag T U (ca cb : M) na nb p r :
  g_fock T U ca cb na nb (lshift L p) (rshift L r) = 0 /\ g_fock T U ca cb na nb (rshift L p) (lshift L r) = 0.
Proof.
by rewrite -/(idx false p) -/(idx true r) -/(idx true p) -/(idx false r) !g_fock_idx.
Qed.
Lemma g_fock_blocks T U (ca cb : M) na nb :
  g_fock T U ca cb na nb = block_diag (u_fock_a T U ca cb na nb) (u_fock_b T U ca cb na nb).
Proof.
apply/matrixP => p q; case: (idxP p) => a [i ->]; case: (idxP q) => b [j ->].
rewrite bd_idx; case: a; case: b => /=; rewrite /idx.
- exact: u_fock_bE.
- by case: (g_fock_offdiag T U ca cb na nb i j).
- by case: (g_fock_offdiag T U ca cb na nb i j).
- exact: u_fock_aE.
Qed.
End Hub.

From Verif Require Import HubSpec.
Section Final.
Variables (F : realFieldType) (L : nat).
Local Notation M := 'M[F]_L.
Lemma hub_energy_spec T U (pa pb : M) :
  hf_energy T U pa pb = kinetic T pa + kinetic T pb + repulsion U pa pb.
Proof. by rewrite hub_energy !dot2E. Qed.
Lemma hh_energy_spec T U w g (shift : bool) (pa pb : M) : w != 0 ->
  hh_energy T U w (gmat0 g) shift pa pb =
  kinetic T pa + kinetic T pb + repulsion U pa pb - (if shift then polaron g w pa pb else 0).
Proof. by move=> hw; rewrite hh_energyE // !dot2E. Qed.
Lemma hh_grad_spec T U w (gm : 'I_L -> 'M[F]_(L + L)) (shift : bool) (pa pb da db : M) : w != 0 ->
  (forall I, (gm I)^T = gm I) -> exists R, forall h,
  hh_energy T U w gm shift (pa + h *: da) (pb + h *: db) =
  hh_energy T U w gm shift pa pb + h * \tr (block_mx da 0 0 db *m hh_fock T U w gm shift pa pb) + h ^+ 2 * R.
Proof.
move=> hw hs; case: (hh_grad T U shift pa pb da db hw hs) => R hR; exists R => h.
by rewrite hR dot2E.
Qed.
Lemma ua_antisym U (ca cb : M) : antisymmetrised (ua_mo U ca cb).
Proof. by move=> p q r s; split; [exact: ua_anti12 | exact: ua_anti34 | exact: ua_pairs]. Qed.
Lemma orth1 : orthonormal (1%:M : M).
Proof. by rewrite /orthonormal trmx1 mulmx1. Qed.
End Final.
Lemma hh_odd_refuted (F : realFieldType) : exists L N (ca cb : 'M[F]_L), orthonormal ca /\ orthonormal cb /\ (N <= 2 * L)%N /\
  \tr (dens ca (hh_na N)) + \tr (dens cb (hh_nb N)) != N%:R.
Proof.
exists 1%N, 1%N, 1%:M, 1%:M; do 3 (split=> //; try exact: orth1).
rewrite hh_count //; [|exact: orth1..].
by rewrite /= subnn eq_sym pnatr_eq0.
Qed.
Lemma ones_ex (F : realFieldType) (U : F) : hf_energy 0 U (1%:M : 'M_1) 1%:M = U.
Proof.
by rewrite hub_energy_spec /kinetic /repulsion !mul0mx !mxtrace0 !add0r big_ord1 !mxE eqxx mulr1 mulr1.
Qed.
