(** Proofs about the linear-algebra helpers. *)
From mathcomp Require Import all_ssreflect all_algebra all_fingroup.
From Verif Require Import MathModel MathSpec.
From Verif Require Base.
Set Implicit Arguments.
Unset Strict Implicit.
Unset Printing Implicit Defensive.
Import Order.TTheory GRing.Theory Num.Theory.
Local Open Scope ring_scope.

Lemma iota_rcons n : iota 0 n.+1 = rcons (iota 0 n) n.
Proof. by rewrite -addn1 iotaD cats1. Qed.

Section Arrays.
Variable F : realFieldType.
Implicit Types A B U S P L c d : arr F.

Lemma mm_mat r k (c : nat) A B : shape r k A -> shape k c B ->
  exists R, [/\ mm A B = Ok R, shape r c R & mat r c R = mat r k A *m mat k c B].
Proof.
case: A=> ra ca A; case: B=> rb cb B [/= -> ->] [/= -> ->]; rewrite /mm /= eqxx; eexists; split; [by []|by split|].
apply/matrixP=> i j; rewrite !mxE /= maxnn; apply: eq_bigr=> l _.
rewrite !mxE /bc; case: eqP=> // k1.
by have -> : (l : nat) = 0%N by case: l => l /=; rewrite k1; case: l.
Qed.

Lemma dot_mat r k (c : nat) A B : shape r k A -> shape k c B ->
  exists R, [/\ dot A B = Ok R, shape r c R & mat r c R = mat r k A *m mat k c B].
Proof.
case: A=> ra ca A; case: B=> rb cb B [/= -> ->] [/= -> ->]; rewrite /dot /= eqxx; eexists; split; [by []|by split|].
by apply/matrixP=> i j; rewrite !mxE /=; apply: eq_bigr=> l _; rewrite !mxE.
Qed.

Lemma shape_tr r (c : nat) A : shape r c A -> shape c r (tr A).
Proof. by case. Qed.
Lemma mat_tr r (c : nat) A : mat c r (tr A) = (mat r c A)^T.
Proof. by apply/matrixP=> i j; rewrite !mxE. Qed.

Lemma unitary_transform_mat n k U A : shape n k U -> shape n n A ->
  exists R, [/\ unitary_transform U A = Ok R, shape k k R &
              mat k k R = (mat n k U)^T *m mat n n A *m mat n k U].
Proof.
move=> sU sA; have [B [e1 sB mB]] := mm_mat sA sU.
have [R [e2 sR mR]] := mm_mat (shape_tr sU) sB.
by exists R; split=> //; [rewrite /unitary_transform e1|rewrite mR mB mat_tr mulmxA].
Qed.

Lemma unitary_transform_lib_mat n k U A : shape n k U -> shape n n A ->
  exists R, [/\ unitary_transform_lib U A = Ok R, shape k k R &
              mat k k R = (mat n k U)^T *m mat n n A *m mat n k U].
Proof.
move=> sU sA; have [B [e1 sB mB]] := dot_mat sA sU.
have [R [e2 sR mR]] := dot_mat (shape_tr sU) sB.
by exists R; split=> //; [rewrite /unitary_transform_lib e1|rewrite mR mB mat_tr mulmxA].
Qed.

(** ** transformations *)
Lemma transforms_agree n k U A : shape n k U -> shape n n A ->
  exists R1 R2, [/\ unitary_transform U A = Ok R1, unitary_transform_lib U A = Ok R2, shape k k R1, shape k k R2 &
    mat k k R1 = mat k k R2].
Proof.
move=> sU sA; have [R1 [e1 s1 m1]] := unitary_transform_mat sU sA.
have [R2 [e2 s2 m2]] := unitary_transform_lib_mat sU sA.
by exists R1, R2; split=> //; rewrite m1 m2.
Qed.

Lemma transform_back n U V A : shape n n U -> shape n n V -> shape n n A -> mat n n U *m mat n n V = 1%:M ->
  exists B R, [/\ unitary_transform U A = Ok B, unitary_transform V B = Ok R, shape n n R & mat n n R = mat n n A].
Proof.
move=> sU sV sA UV; have [B [e1 sB mB]] := unitary_transform_mat sU sA.
have [R [e2 sR mR]] := unitary_transform_mat sV sB.
exists B, R; split=> //; rewrite mR mB -!mulmxA UV mulmx1 !mulmxA -trmx_mul UV trmx1 mul1mx //.
Qed.

Lemma transform_sym n k U A R : shape n k U -> shape n n A -> unitary_transform U A = Ok R ->
  (mat n n A)^T = mat n n A -> (mat k k R)^T = mat k k R.
Proof.
move=> sU sA eR sym; have [R' [e1 _ mR]] := unitary_transform_mat sU sA.
by move: eR; rewrite e1=> -[<-]; rewrite mR !trmx_mul trmxK sym mulmxA.
Qed.

Lemma transform_trace n U A R : shape n n U -> shape n n A -> unitary_transform U A = Ok R ->
  mat n n U *m (mat n n U)^T = 1%:M -> \tr (mat n n R) = \tr (mat n n A).
Proof.
move=> sU sA eR uu; have [R' [e1 _ mR]] := unitary_transform_mat sU sA.
by move: eR; rewrite e1=> -[<-]; rewrite mR -mulmxA mxtrace_mulC -mulmxA uu mulmx1.
Qed.

Lemma dm_do_mat n S dm U : shape n n S -> shape n n dm -> shape n n U ->
  exists D, [/\ get_dm_do S dm U = Ok D, shape n n D &
    mat n n D = (mat n n U)^T *m (mat n n S)^T *m mat n n dm *m (mat n n S *m mat n n U)].
Proof.
move=> sS sd sU; have [su [e1 ssu msu]] := mm_mat sS sU.
have [D [e2 sD mD]] := unitary_transform_mat ssu sd.
by exists D; split=> //; [rewrite /get_dm_do e1|rewrite mD msu trmx_mul].
Qed.

Lemma dm_do_expectation n S dm U A : shape n n S -> shape n n dm -> shape n n U -> shape n n A ->
  (mat n n S)^T = mat n n S ->
  (mat n n U)^T *m mat n n S *m mat n n U = 1%:M ->
  exists D B, [/\ get_dm_do S dm U = Ok D, unitary_transform U A = Ok B &
    \tr (mat n n D *m mat n n B) = \tr (mat n n dm *m mat n n A)].
Proof.
move=> sS sd sU sA symS uSu.
have [D [e1 sD mD]] := dm_do_mat sS sd sU.
have [B [e2 sB mB]] := unitary_transform_mat sU sA.
exists D, B; split=> //; rewrite mD mB symS.
have uu : mat n n U *m ((mat n n U)^T *m mat n n S) = 1%:M by apply: mulmx1C.
have vv : mat n n S *m mat n n U *m (mat n n U)^T = 1%:M.
  by apply: mulmx1C; rewrite mulmxA.
set X := mat n n U in uu vv *; set Y := mat n n S in uu vv *; set d := mat n n dm; set a := mat n n A.
have -> : X^T *m Y *m d *m (Y *m X) *m (X^T *m a *m X) = X^T *m Y *m d *m ((Y *m X *m X^T) *m a *m X).
  by rewrite !mulmxA.
by rewrite vv mul1mx mulmxA mxtrace_mulC !mulmxA -[X *m X^T *m Y]mulmxA uu mul1mx.
Qed.

Lemma dm_do_back n S dm U V W : shape n n S -> shape n n dm -> shape n n U -> shape n n V -> shape n n W ->
  (mat n n S)^T = mat n n S ->
  (mat n n U)^T *m mat n n S *m mat n n U = 1%:M -> mat n n U *m mat n n V = 1%:M ->
  exists D B, [/\ get_dm_do S dm U = Ok D, unitary_transform V W = Ok B &
    \tr (mat n n dm *m mat n n B) = \tr (mat n n D *m mat n n W)].
Proof.
move=> sS sd sU sV sW symS uSu UV.
have [B [e2 sB mB]] := unitary_transform_mat sV sW.
have [D [B' [e1 e3 tt]]] := dm_do_expectation sS sd sU sB symS uSu.
exists D, B; split=> //; rewrite -tt.
have [B'' [e4 _ mB']] := unitary_transform_mat sU sB.
move: e3; rewrite e4=> -[<-]; rewrite mB' mB.
have VU := mulmx1C UV.
congr (\tr (_ *m _)).
by rewrite -!mulmxA VU mulmx1 !mulmxA -trmx_mul VU trmx1 mul1mx.
Qed.

(** ** phase fixing *)
Lemma argmax_lt n (f : nat -> F) : (0 < n)%N -> (argmax n f < n)%N.
Proof.
case: n=> // n _; rewrite /argmax /=.
suff: forall l b, (b < n.+1)%N -> all (fun i => (i < n.+1)%N) l ->
   (foldl (fun b0 i => if (f b0 < f i)%R then i else b0) b l < n.+1)%N.
  by apply=> //; apply/allP=> i; rewrite mem_iota add1n => /andP[].
elim=> //= a l IH b hb /andP[ha hl]; apply: IH=> //; by case: ifP.
Qed.

Lemma argmax_ge n (f : nat -> F) i : (i < n)%N -> f i <= f (argmax n f).
Proof.
case: n=> // n; rewrite ltnS /argmax /=.
suff H: forall l b, let r := foldl (fun b0 i => if f b0 < f i then i else b0) b l in
   f b <= f r /\ forall i, i \in l -> f i <= f r.
  move=> hi; have [h0 h1] := H (iota 1 n) 0%N.
  by case: i hi=> // i hi; apply: h1; rewrite mem_iota add1n /= ltnS.
elim=> [|a l IH] b /=; first by split.
case: ltP=> h; have [h1 h2] := IH (if f b < f a then a else b).
- rewrite h in h1 h2; split; first exact: le_trans (ltW h) h1.
  by move=> j; rewrite inE=> /orP[/eqP->|/h2].
- have hb : (f b < f a) = false by apply/negbTE; rewrite -leNgt.
  rewrite hb in h1 h2; split=> // j; rewrite inE=> /orP[/eqP->|/h2] //.
  exact: le_trans h h1.
Qed.

Lemma fix_phase_signs n k (c : arr F) : same_up_to_signs (mat n k c) (mat n k (fix_phase c)).
Proof.
exists (fun j => at2 c (argmax (rows c) (fun a => `|at2 c a j|)) j < 0).
by move=> i j; rewrite !mxE /=; case: ifP=> _; rewrite /= ?expr1 ?mulN1r ?expr0 ?mul1r.
Qed.

(** the entry of largest magnitude of every column is not negative *)
Lemma fix_phase_largest c j : (0 < rows c)%N ->
  exists i, [/\ (i < rows c)%N, 0 <= at2 (fix_phase c) i j &
     forall a, (a < rows c)%N -> `|at2 (fix_phase c) a j| <= `|at2 (fix_phase c) i j|].
Proof.
move=> h; exists (argmax (rows c) (fun a => `|at2 c a j|)); split; first exact: argmax_lt.
  by rewrite /=; case: ltP => // h1; rewrite oppr_ge0 ltW.
move=> a ha; rewrite /=; have := argmax_ge (fun a => `|at2 c a j|) ha.
by case: ifP=> _; rewrite ?normrN.
Qed.

Lemma argmax_ext n (f g : nat -> F) : (forall i, f i = g i) -> argmax n f = argmax n g.
Proof.
move=> h; rewrite /argmax; move: (iota 1 _) => l; elim: l (0%N : nat) => //= a l IH b.
by rewrite !h IH.
Qed.

(** the result does not depend on the signs LAPACK happened to choose *)
Lemma fix_phase_unique c d (s : nat -> bool) : rows c = rows d ->
  (forall i j, at2 d i j = (-1) ^+ s j * at2 c i j) ->
  forall j, (0 < rows c)%N -> (exists i, (i < rows c)%N /\ at2 c i j != 0) ->
  forall i, at2 (fix_phase d) i j = at2 (fix_phase c) i j.
Proof.
move=> er hs j hr [i0 [hi0 nz]] i; rewrite /=.
have -> : argmax (rows d) (fun a => `|at2 d a j|) = argmax (rows c) (fun a => `|at2 c a j|).
  rewrite er; apply: argmax_ext=> a; rewrite hs normrM.
  by case: (s j); rewrite /= ?expr1 ?expr0 ?normrN1 ?normr1 mul1r.
set m := argmax _ _.
have nzm : at2 c m j != 0.
  rewrite -normr_gt0; apply: lt_le_trans (argmax_ge (fun a => `|at2 c a j|) hi0).
  by rewrite normr_gt0.
rewrite !hs; case: (s j); rewrite /= ?expr1 ?expr0 ?mul1r // !mulN1r oppr_lt0.
by case: ltgtP nzm => // h _; rewrite ?opprK.
Qed.

(** sign changes keep a solution of the generalised eigenvalue problem *)
Lemma signs_gen_eig n (h s : 'M[F]_n) e (c d : 'M[F]_n) : same_up_to_signs c d -> gen_eig h s e c -> gen_eig h s e d.
Proof.
move=> [sg hs] [o g].
have -> : d = c *m diag_mx (\row_j (-1) ^+ sg j).
  by apply/matrixP=> i j; rewrite mul_mx_diag !mxE hs mulrC.
set D := diag_mx _.
have DD : D *m D = 1%:M.
  apply/matrixP=> i j; rewrite mul_mx_diag !mxE; case: eqP=> [->|]; rewrite ?mulr1n ?mulr0n ?mul0r //.
  by rewrite -expr2 sqrr_sign.
have DT : D^T = D by rewrite tr_diag_mx.
split.
- rewrite trmx_mul DT -!mulmxA [c^T *m _]mulmxA [_ *m (c *m D)]mulmxA o mul1mx //.
- rewrite mulmxA g -!mulmxA; congr (_ *m (_ *m _)).
  by rewrite /D; apply/matrixP=> i j; rewrite !mul_mx_diag !mxE; case: eqP=> [->|];
     rewrite ?mulr1n ?mulr0n ?mul0r // mulrC.
Qed.

Lemma fix_phase_gen_eig n (h s : 'M[F]_n) e (c : arr F) :
  gen_eig h s e (mat n n c) -> gen_eig h s e (mat n n (fix_phase c)).
Proof. exact (signs_gen_eig (fix_phase_signs n n c)). Qed.
End Arrays.

Section Chol.
Variable F : realFieldType.
Variable eigh0 : arr F -> arr F -> (nat -> F) * arr F.
Variable dpstrf : arr F -> F -> arr F * seq int * int * int.
Implicit Types S P L : arr F.

Lemma zero_inner (h : nat -> nat -> F) i m a b :
  foldl (fun h j => set2 h j i 0) h (iota 0 m) a b = if (a < m)%N && (b == i) then 0 else h a b.
Proof.
elim: m=> [|m IH] //; rewrite iota_rcons foldl_rcons /set2 IH ltnS [in RHS]leq_eqVlt.
by case: (a == m); case: (b == i); case: (a < m)%N.
Qed.

Lemma zero_outer (h : nat -> nat -> F) n a b :
  foldl (fun h i => foldl (fun h j => set2 h j i 0) h (iota 0 i)) h (iota 0 n) a b
  = if (a < b < n)%N then 0 else h a b.
Proof.
elim: n=> [|n IH]; first by rewrite ltn0 andbF.
rewrite iota_rcons foldl_rcons zero_inner IH ltnS [(b <= n)%N]leq_eqVlt.
by case: eqP=> [->|]; rewrite ?orbT ?orbF ?andbT ?andbF ?ltnn ?andbF.
Qed.

Lemma pivot_loop (g : nat -> nat) k a b :
  foldl (fun (h : nat -> nat -> F) i => set2 h (g i) i 1) (fun _ _ => 0) (iota 0 k) a b
  = if (b < k)%N && (a == g b) then 1 else 0.
Proof.
elim: k=> [|k IH] //; rewrite iota_rcons foldl_rcons /set2 IH ltnS [in RHS]leq_eqVlt.
case: (altP (b =P k)) => [->|h2]; rewrite ?andbT ?andbF //= ltnn /=.
by case: eqP.
Qed.

Section Orth.
Variables (n k : nat) (S : arr F) (tol : F).
Hypothesis sS : shape n n S.
Hypothesis ok : dpstrf_ok k (mat n n S) (dpstrf S tol).

Lemma orth_ok : exists L P,
  [/\ full_cholesky_orth dpstrf S tol = Ok (L, P), shape k k L, shape n k P &
     [/\ forall i j, (i < j)%N -> (j < k)%N -> at2 L i j = 0,
         forall i, (i < k)%N -> at2 L i i != 0,
         (mat n k P)^T *m mat n k P = 1%:M &
         (mat n k P)^T *m mat n n S *m mat n k P = mat k k L *m (mat k k L)^T]].
Proof.
case: sS=> rS cS; move: ok; rewrite /full_cholesky_orth /full_cholesky_decomposition.
case: (dpstrf S tol)=> [[[c piv] rank] info] /= [hi -> /andP[k0 kn] [p [sp hp hd hc]]].
rewrite ltNge hi /= rS.
have b1 : (n%:Z < k%:Z)%R = false by rewrite ltz_nat ltnNge kn.
have b2 : (k%:Z <= 0)%R = false by rewrite lez_nat leqNgt k0.
have piv_nth i (hin : (i < n)%N) : nth 0 piv i = (p (Ordinal hin)).+1%:Z by rewrite -hp.
have b3 : has (fun p0 : int => n%:Z < p0) piv = false.
  apply/hasPn=> x /(nthP 0) [i]; rewrite sp=> hin <-; rewrite piv_nth ltz_nat -leqNgt; exact: ltn_ord.
have b4 : has (fun p0 : int => p0 <= 0) piv = false.
  by apply/hasPn=> x /(nthP 0) [i]; rewrite sp=> hin <-; rewrite piv_nth.
rewrite b1 b2 b3 b4 /=; do 2 eexists; split; [by []|by split|by split|].
have Pent (a : 'I_n) (b : 'I_k) :
  foldl (fun (h : nat -> nat -> F) i => set2 h `|nth 0%R piv i|.-1 i 1) (fun _ _ => 0) (iota 0 k) a b
  = (a == p (widen_ord kn b))%:R.
  rewrite pivot_loop ltn_ord /= (piv_nth b (leq_trans (ltn_ord b) kn)) /=.
  have -> : Ordinal (leq_trans (ltn_ord b) kn) = widen_ord kn b by apply: val_inj.
  by rewrite -(inj_eq val_inj); case: eqP.
have Psel (M : 'M[F]_n) (i j : 'I_k) :
  \sum_l (\sum_a (a == p (widen_ord kn i))%:R * M a l) * (l == p (widen_ord kn j))%:R
  = M (p (widen_ord kn i)) (p (widen_ord kn j)).
  rewrite (bigD1 (p (widen_ord kn j))) //= eqxx mulr1 [X in _ + X]big1 ?addr0; last first.
    by move=> l hl; rewrite (negbTE hl) mulr0.
  rewrite (bigD1 (p (widen_ord kn i))) //= eqxx mul1r [X in _ + X]big1 ?addr0 // => a ha.
  by rewrite (negbTE ha) mul0r.
split.
- by move=> i j hij hj; rewrite /= zero_outer hij (leq_trans hj kn).
- by move=> i hik; rewrite /= zero_outer ltnn hd.
- apply/matrixP=> i j; rewrite !mxE.
  transitivity (\sum_a ((a == p (widen_ord kn i))%:R * (a == p (widen_ord kn j))%:R : F)).
    by apply: eq_bigr=> a _; rewrite !mxE /= !Pent.
  rewrite (bigD1 (p (widen_ord kn i))) //= eqxx mul1r [X in _ + X]big1 ?addr0; last first.
    by move=> a ha; rewrite (negbTE ha) mul0r.
  by rewrite (inj_eq perm_inj) -!(inj_eq val_inj).
- apply/matrixP=> i j; rewrite !mxE.
  transitivity (\sum_l (\sum_a (a == p (widen_ord kn i))%:R * mat n n S a l) * (l == p (widen_ord kn j))%:R).
    apply: eq_bigr=> l _; rewrite !mxE /= Pent; congr (_ * _); apply: eq_bigr=> a _.
    by rewrite !mxE /= Pent.
  rewrite Psel -hc ?ltn_ord //=; apply: eq_bigr=> l _; rewrite !mxE /= !zero_outer.
  have kk (q : 'I_k) : (q < n)%N := leq_trans (ltn_ord q) kn.
  by rewrite !(leqNgt l) !kk !andbT; case: ltnP=> _; case: ltnP=> _; rewrite ?mul0r ?mulr0.
Qed.
End Orth.

Lemma lower_unit k (L : 'M[F]_k) : (forall i j : 'I_k, (i < j)%N -> L i j = 0) ->
  (forall i, L i i != 0) -> L \in unitmx.
Proof.
move=> hu hd; rewrite unitmxE det_trig; last first.
  by apply/is_trig_mxP=> i j; exact: hu.
by rewrite unitfE; apply/prodf_neq0=> i _.
Qed.

Lemma orthonormaliser n k S tol : shape n n S -> dpstrf_ok k (mat n n S) (dpstrf S tol) ->
  forall L P, full_cholesky_orth dpstrf S tol = Ok (L, P) ->
  mat k k L \in unitmx /\
  orthonormal_cols (mat n n S) (mat n k P *m (invmx (mat k k L))^T).
Proof.
move=> sS ok L P e; have [L' [P' [e' sL sP [hu hd _ hc]]]] := orth_ok sS ok.
move: e; rewrite e'=> -[<- <-].
have uL : mat k k L' \in unitmx.
  by apply: lower_unit=> [i j hij|i]; rewrite mxE; [apply: hu|apply: hd].
split=> //; rewrite /orthonormal_cols trmx_mul trmxK.
have -> : invmx (mat k k L') *m (mat n k P')^T *m mat n n S *m (mat n k P' *m (invmx (mat k k L'))^T)
  = invmx (mat k k L') *m ((mat n k P')^T *m mat n n S *m mat n k P') *m (invmx (mat k k L'))^T.
  by rewrite !mulmxA.
by rewrite hc !mulmxA mulVmx // mul1mx -trmx_mul mulVmx // trmx1.
Qed.

Lemma orth_errors S tol :
  (let: (_, piv, rank, info) := dpstrf S tol in
   [\/ info < 0, (rows S)%:Z < rank, rank <= 0 | exists p, p \in piv /\ ((rows S)%:Z < p \/ p <= 0)]) <->
  full_cholesky_orth dpstrf S tol = Err Base.ValueError.
Proof.
rewrite /full_cholesky_orth /full_cholesky_decomposition; case: (dpstrf S tol)=> [[[c piv] rank] info].
case: (ltP info 0)=> hi; first by split=> // _; constructor 1.
rewrite /=; case: ifP=> [/or4P h|/negbT h]; split=> //.
- move=> _; case: h=> [h|h|/hasP[p hp h]|/hasP[p hp h]];
    [by constructor 2|by constructor 3|by constructor 4; exists p; split; [|left]|by constructor 4; exists p; split; [|right]].
- move: h; rewrite !negb_or -!leNgt -!ltNge=> /and4P[h1 h2 /hasPn h3 /hasPn h4] [].
  + by [].
  + by move=> q; move: h1; rewrite leNgt q.
  + by move=> q; move: h2; rewrite ltNge q.
  + move=> [p [hp [q|q]]]; [by move: (h3 _ hp); rewrite q|by move: (h4 _ hp); rewrite q].
Qed.

(** ** orbitals *)
Lemma rao_orbitals n k (P L h1e S : arr F) :
  shape n n h1e -> shape n k P -> shape k k L ->
  (mat n k P)^T *m mat n n S *m mat n k P = mat k k L *m (mat k k L)^T ->
  (forall h s, shape k k (eigh0 h s).2) ->
  (forall h s, mat k k h = (mat n k P)^T *m mat n n h1e *m mat n k P ->
               mat k k s = mat k k L *m (mat k k L)^T ->
     gen_eig (mat k k h) (mat k k s) (eigh0 h s).1 (mat k k (eigh0 h s).2)) ->
  exists e C, [/\ cholesky_diag_fock_rao eigh0 P L h1e = Ok (e, C), shape n k C &
     orthonormal_cols (mat n n S) (mat n k C) /\
     (mat n k P)^T *m (mat n n h1e *m mat n k C) =
     (mat n k P)^T *m (mat n n S *m mat n k C *m diag_mx (\row_i e i))].
Proof.
move=> sh sP sL hSL se he.
have [AP [e1 sAP mAP]] := mm_mat sh sP.
have [Fr [e2 sFr mFr]] := mm_mat (shape_tr sP) sAP.
have [Sr [e3 sSr mSr]] := mm_mat sL (shape_tr sL).
have sc : shape k k (fix_phase (eigh0 Fr Sr).2) by case: (se Fr Sr); split.
have [C [e4 sC mC]] := mm_mat sP sc.
exists (eigh0 Fr Sr).1, C; split=> //.
  rewrite /cholesky_diag_fock_rao /ao2rao e1 /= e2 /= /get_reduced_overlp e3 /= /eigh.
  case: sFr sSr=> -> -> [-> ->]; rewrite !eqxx /= /get_orbitals_from_rao e4 //.
have mF : mat k k Fr = (mat n k P)^T *m mat n n h1e *m mat n k P by rewrite mFr mAP mat_tr mulmxA.
have mS : mat k k Sr = mat k k L *m (mat k k L)^T by rewrite mSr mat_tr.
have [o g] := signs_gen_eig (fix_phase_signs k k (eigh0 Fr Sr).2) (he _ _ mF mS).
split.
- rewrite /orthonormal_cols mC trmx_mul -!mulmxA [(mat n k P)^T *m _]mulmxA [_ *m (mat n k P *m _)]mulmxA hSL -mS.
  by rewrite -o mulmxA.
- by rewrite mC !mulmxA -mF g mS -hSL.
Qed.

Lemma rdm1_nelec n k (S : 'M[F]_n) (C : arr F) occ : shape n k C -> orthonormal_cols S (mat n k C) ->
  nelec S (mat n n (make_rdm1 C occ)) = \sum_(i < k) occ i.
Proof.
move=> [rC cC] o; rewrite /nelec.
have -> : mat n n (make_rdm1 C occ) = mat n k C *m diag_mx (\row_i occ i) *m (mat n k C)^T.
  apply/matrixP=> i j; rewrite !mxE /= cC; apply: eq_bigr=> l _.
  by rewrite mul_mx_diag !mxE [occ l * _]mulrC.
rewrite -!mulmxA mxtrace_mulC -!mulmxA [(mat n k C)^T *m _]mulmxA o mulmx1 mxtrace_diag.
by apply: eq_bigr=> i _; rewrite mxE.
Qed.

(** the rank-deficient case of the code as it is written *)
Lemma deficient n k S h1e tol occ : shape n n S -> shape n n h1e -> tol = 10%:R ^- 7 ->
  dpstrf_ok k (mat n n S) (dpstrf S tol) -> (k < n)%N ->
  init_guess_by_1e eigh0 dpstrf S h1e occ = Err Base.ValueError.
Proof.
move=> sS sh etol ok kn; have [L [P [e sL sP _]]] := orth_ok sS ok.
rewrite /init_guess_by_1e /get_cholesky -etol e /= /cholesky_diag_fock_rao /ao2rao.
case: sL sP sh=> rL cL [rP cP] [rh ch].
have nk : (n == k) = false by apply/negbTE; rewrite neq_ltn kn orbT.
have n1 : (n == 1%N) = false.
  apply/negP=> /eqP n1; move: kn; rewrite n1 ltnS leqn0=> /eqP k0.
  by move: ok; case: (dpstrf S tol)=> [[[? ?] ?] ?] [_ _]; rewrite k0.
rewrite {1}/mm ch rL nk n1 /=; case: ifP=> [/eqP k1|//].
rewrite /= {1}/mm /=; case: ifP=> [h|//].
rewrite /= /get_reduced_overlp /mm /= eqxx /= /eigh /= rP cL.
by rewrite eqxx eq_sym nk andbF.
Qed.

(** ** preconditioner *)
Lemma precond_denominator shift (diag dx : nat -> F) e i :
  exists d, [/\ precond shift diag dx e i = dx i / d, 10%:R ^- 8 <= `|d| &
     10%:R ^- 8 <= `|diag i - (e - shift)| -> d = diag i - (e - shift)].
Proof.
rewrite /precond; eexists; split; first reflexivity.
- case: ltP=> // _; exact: ler_norm.
- by case: ltP=> // h1 h2; move: (lt_le_trans h1 h2); rewrite ltxx.
Qed.
End Chol.

Section Heff.
Variables (C : numClosedFieldType) (vdim : nat).
Notation H := (nat -> nat -> C).

Lemma foldl_dom (X : eqType) (body : H -> X -> H) (T : H) (d : X -> nat -> nat -> bool) (l : seq X) :
  (forall h x a b, x \in l -> body h x a b = if d x a b then T a b else h a b) ->
  forall h a b, foldl body h l a b = if has (fun x => d x a b) l then T a b else h a b.
Proof.
elim: l=> [|x l IH] hb h a b //=; rewrite IH => [|h' y a' b' hy]; last by apply: hb; rewrite inE hy orbT.
by rewrite hb ?inE ?eqxx //; case: (d x a b); case: (has _ _).
Qed.

Lemma set2_pair (h : H) i j v w a b : (i != j) || (v == w) ->
  set2 (set2 h i j v) j i w a b =
  if (a == i) && (b == j) then v else if (a == j) && (b == i) then w else h a b.
Proof.
rewrite /set2; case: (altP (a =P i))=> [->|]; case: (altP (b =P j))=> [->|] //=; rewrite ?andbF //.
by case: (altP (i =P j))=> [->|] //= /eqP->; rewrite eqxx.
Qed.

Section Step.
Variables (Aop : vec C -> vec C) (xs0 xt : seq (vec C)) (h : H).
Let xs := xs0 ++ xt.
Let x a := nth (@zerov C) xs a.
Let T a b := braket vdim (x a) (Aop (x b)).
Hypothesis hproj : projected vdim Aop xs0 h.

Let row0 : (size (map Aop xs) - size (map Aop xt) = size xs0)%N.
Proof. by rewrite !size_map size_cat addnK. Qed.
Let xtE i : nth (@zerov C) xt i = x (size xs0 + i).
Proof. by rewrite /x /xs nth_cat ltnNge leq_addr /= addKn. Qed.
Let axtE i : (i < size xt)%N -> nth (@zerov C) (map Aop xt) i = Aop (x (size xs0 + i)).
Proof. by move=> hi; rewrite (nth_map (@zerov C)) // xtE. Qed.
Let axE i : (i < size xs)%N -> nth (@zerov C) (map Aop xs) i = Aop (x i).
Proof. by move=> hi; rewrite (nth_map (@zerov C)). Qed.
Let old a b : (a < size xs0)%N -> (b < size xs0)%N -> h a b = T a b.
Proof. by move=> ha hb; rewrite hproj // /T /x /xs !nth_cat ha hb. Qed.
Let sz0 i : (i < size xs0)%N -> (i < size xs)%N.
Proof. by rewrite size_cat; exact: ltn_addr. Qed.

(** every entry of the enlarged block is old or written *)
Let cover (h' : H) : (forall a b, (a < size xs0)%N -> (b < size xs0)%N -> h' a b = T a b) ->
  (forall a b, (a < size xs0)%N -> (b < size xt)%N -> h' a (size xs0 + b)%N = T a (size xs0 + b)%N) ->
  (forall a b, (a < size xt)%N -> (b < size xs0)%N -> h' (size xs0 + a)%N b = T (size xs0 + a)%N b) ->
  (forall a b, (a < size xt)%N -> (b < size xt)%N -> h' (size xs0 + a)%N (size xs0 + b)%N = T (size xs0 + a)%N (size xs0 + b)%N) ->
  projected vdim Aop xs h'.
Proof.
move=> h1 h2 h3 h4 i j; rewrite !size_cat => hi hj; rewrite -/(x i) -/(x j) -/(T i j).
case: (ltnP i (size xs0)) hi => [hi _|hi]; case: (ltnP j (size xs0)) hj => [hj _|hj].
- exact: h1.
- by rewrite -(subnKC hj) ltn_add2l => q; apply: h2.
- by rewrite -(subnKC hi) ltn_add2l => q; apply: h3.
- by rewrite -(subnKC hj) -(subnKC hi) !ltn_add2l => q1 q2; apply: h4.
Qed.

Lemma fill_heff_ok : projected vdim Aop xs (fill_heff vdim h xs (map Aop xs) xt (map Aop xt)).
Proof.
rewrite /fill_heff row0 size_map.
set h1 := foldl _ h _.
have h1E a b : h1 a b = if has (fun ip => has (fun jp => (a == size xs0 + ip)%N && (b == size xs0 + jp)%N)
   (iota 0 (size xt))) (iota 0 (size xt)) then T a b else h a b.
  rewrite /h1; apply: (foldl_dom (d := fun ip a b => has (fun jp => (a == size xs0 + ip)%N && (b == size xs0 + jp)%N) _)).
  move=> h' ip a' b' hip; apply: (foldl_dom (d := fun jp a b => (a == size xs0 + ip)%N && (b == size xs0 + jp)%N)).
  move=> h'' jp a'' b''; rewrite mem_iota add0n /= => hj.
  by rewrite /set2; case: ifP=> // /andP[/eqP-> /eqP->]; rewrite xtE axtE.
set h2 := foldl _ h1 _.
have h2E a b : h2 a b = if has (fun i => has (fun jp => ((a == i) && (b == size xs0 + jp)%N) || ((a == size xs0 + jp)%N && (b == i)))
   (iota 0 (size xt))) (iota 0 (size xs0)) then T a b else h1 a b.
  rewrite /h2; apply: (foldl_dom (d := fun i a b => has (fun jp => ((a == i) && (b == size xs0 + jp)%N) || ((a == size xs0 + jp)%N && (b == i))) _)).
  move=> h' i a' b'; rewrite mem_iota add0n /= => hi.
  apply: (foldl_dom (d := fun jp a b => ((a == i) && (b == size xs0 + jp)%N) || ((a == size xs0 + jp)%N && (b == i)))).
  move=> h'' jp a'' b''; rewrite mem_iota add0n /= => hj.
  rewrite set2_pair; last by rewrite neq_ltn (leq_trans hi) ?leq_addr.
  case: ifP=> [/andP[/eqP-> /eqP->]|_] /=; first by rewrite axtE.
  by case: ifP=> // /andP[/eqP-> /eqP->]; rewrite xtE axE ?sz0.
apply: cover=> a b ha hb; rewrite h2E.
- by case: ifP=> // _; rewrite h1E; case: ifP=> // _; apply: old.
- rewrite ifT //; apply/hasP; exists a; first by rewrite mem_iota.
  by apply/hasP; exists b; [rewrite mem_iota|rewrite !eqxx].
- rewrite ifT //; apply/hasP; exists b; first by rewrite mem_iota.
  by apply/hasP; exists a; [rewrite mem_iota|rewrite !eqxx orbT].
- case: ifP=> // _; rewrite h1E ifT //; apply/hasP; exists a; first by rewrite mem_iota.
  by apply/hasP; exists b; [rewrite mem_iota|rewrite !eqxx].
Qed.

Hypothesis herm : hermitian_op vdim Aop.
Let TC a b : (T a b)^* = T b a.
Proof. by rewrite /T /braket [in RHS]herm. Qed.

Lemma fill_heff_hermitian_ok : projected vdim Aop xs (fill_heff_hermitian vdim h (map Aop xs) xt (map Aop xt)).
Proof.
rewrite /fill_heff_hermitian row0 size_map.
set h1 := foldl _ h _.
have h1E a b : h1 a b = if has (fun ip => (has (fun jp => ((a == size xs0 + ip)%N && (b == size xs0 + jp)%N) || ((a == size xs0 + jp)%N && (b == size xs0 + ip)%N))
   (iota 0 ip)) || ((a == size xs0 + ip)%N && (b == size xs0 + ip)%N)) (iota 0 (size xt)) then T a b else h a b.
  rewrite /h1; apply: (foldl_dom (d := fun ip a b => (has (fun jp => ((a == size xs0 + ip)%N && (b == size xs0 + jp)%N) || ((a == size xs0 + jp)%N && (b == size xs0 + ip)%N)) _) || _)).
  move=> h' ip a' b'; rewrite mem_iota add0n /= => hip.
  rewrite {1}/set2; case: ifP=> [/andP[/eqP-> /eqP->]|_]; rewrite ?orbT ?orbF.
    by rewrite xtE axtE // -/(T _ _) (Creal_ReP _ _) //; apply/CrealP; rewrite TC.
  apply: (foldl_dom (d := fun jp a b => ((a == size xs0 + ip)%N && (b == size xs0 + jp)%N) || ((a == size xs0 + jp)%N && (b == size xs0 + ip)%N))).
  move=> h'' jp a'' b''; rewrite mem_iota add0n /= => hj.
  rewrite set2_pair; last by rewrite eqn_add2l neq_ltn hj orbT.
  rewrite {1}/set2 !eqxx /=.
  case: ifP=> [/andP[/eqP-> /eqP->]|_] /=; first by rewrite xtE axtE ?(ltn_trans hj).
  by case: ifP=> // /andP[/eqP-> /eqP->]; rewrite xtE axtE ?(ltn_trans hj) // -/(T _ _) TC.
set h2 := foldl _ h1 _.
have h2E a b : h2 a b = if has (fun i => has (fun jp => ((a == size xs0 + jp)%N && (b == i)) || ((a == i) && (b == size xs0 + jp)%N))
   (iota 0 (size xt))) (iota 0 (size xs0)) then T a b else h1 a b.
  rewrite /h2; apply: (foldl_dom (d := fun i a b => has (fun jp => ((a == size xs0 + jp)%N && (b == i)) || ((a == i) && (b == size xs0 + jp)%N)) _)).
  move=> h' i a' b'; rewrite mem_iota add0n /= => hi.
  apply: (foldl_dom (d := fun jp a b => ((a == size xs0 + jp)%N && (b == i)) || ((a == i) && (b == size xs0 + jp)%N))).
  move=> h'' jp a'' b''; rewrite mem_iota add0n /= => hj.
  rewrite set2_pair; last by rewrite neq_ltn (leq_trans hi) ?leq_addr ?orbT.
  rewrite {1}/set2 !eqxx /=.
  case: ifP=> [/andP[/eqP-> /eqP->]|_] /=; first by rewrite xtE axE ?sz0.
  by case: ifP=> // /andP[/eqP-> /eqP->]; rewrite xtE axE ?sz0 // -/(T _ _) TC.
apply: cover=> a b ha hb; rewrite h2E.
- by case: ifP=> // _; rewrite h1E; case: ifP=> // _; apply: old.
- rewrite ifT //; apply/hasP; exists a; first by rewrite mem_iota.
  by apply/hasP; exists b; [rewrite mem_iota|rewrite !eqxx orbT].
- rewrite ifT //; apply/hasP; exists b; first by rewrite mem_iota.
  by apply/hasP; exists a; [rewrite mem_iota|rewrite !eqxx].
- case: ifP=> // _; rewrite h1E; rewrite ifT //; case: (ltngtP a b)=> hab.
  + apply/hasP; exists b; first by rewrite mem_iota.
    apply/orP; left; apply/hasP; exists a; [by rewrite mem_iota|by rewrite !eqxx orbT].
  + apply/hasP; exists a; first by rewrite mem_iota.
    apply/orP; left; apply/hasP; exists b; [by rewrite mem_iota|by rewrite !eqxx].
  + apply/hasP; exists a; first by rewrite mem_iota.
    by apply/orP; right; rewrite hab !eqxx.
Qed.
End Step.

Lemma extend_all (Aop : vec C -> vec C) blocks h :
  let st := foldl (extend vdim Aop) ([::], h) blocks in
  st.1 = flatten blocks /\ projected vdim Aop st.1 st.2.
Proof.
rewrite /=; elim/last_ind: blocks=> [|bs b [IH1 IH2]] /=; first by split.
rewrite foldl_rcons -cats1 flatten_cat /= cats0; set st := foldl _ _ _ in IH1 IH2 *.
by rewrite -IH1; split=> //; exact: fill_heff_ok.
Qed.

Lemma extend_hermitian_all (Aop : vec C -> vec C) blocks h : hermitian_op vdim Aop ->
  let st := foldl (extend_hermitian vdim Aop) ([::], h) blocks in
  st.1 = flatten blocks /\ projected vdim Aop st.1 st.2.
Proof.
move=> herm; rewrite /=; elim/last_ind: blocks=> [|bs b [IH1 IH2]] /=; first by split.
rewrite foldl_rcons -cats1 flatten_cat /= cats0; set st := foldl _ _ _ in IH1 IH2 *.
by rewrite -IH1; split=> //; exact: fill_heff_hermitian_ok.
Qed.
End Heff.

(** the Hermitian routine on a matrix that is not Hermitian *)
Lemma hermitian_needed (C : numClosedFieldType) : exists (Aop : vec C -> vec C) blocks h,
  let st := foldl (extend_hermitian 2 Aop) ([::], h) blocks in ~ projected 2 Aop st.1 st.2.
Proof.
pose e k : vec C := fun a => (a == k)%:R.
exists (fun v => fun a => if a == 0%N then v 1%N else 0), [:: [:: e 0%N; e 1%N]], (fun _ _ => 0).
move=> /= /(_ 0%N 1%N isT isT) /=; rewrite /fill_heff_hermitian /set2 /= /braket !big_ord_recl !big_ord0 /= /e /=.
rewrite !(mulr0, mul0r, mulr1, addr0, add0r, conjC0, conjC1) => /eqP.
by rewrite eq_sym oner_eq0.
Qed.

Section LinDepP.
Variable F : realFieldType.

Lemma xmax_spec (x : xnum F) l : exists m, xmax (x :: l) = Ok m /\ (m = x \/ List.In m l) /\ ~~ xlt m x /\
  forall y, List.In y l -> ~~ xlt m y.
Proof.
rewrite /=; eexists; split; first reflexivity.
have tr3 (a b c : xnum F) : ~~ xlt b a -> ~~ xlt c b -> ~~ xlt c a.
  by case: a b c=> [a|] [b|] [c|] //=; rewrite -!leNgt => h1 h2; exact: le_trans h1 h2.
elim: l x=> [|y l IH] x /=; first by split; [left|split=> //; case: x=> [q|] //=; rewrite ltxx].
case: ifP=> h; have [h1 [h2 h3]] := IH (if xlt x y then y else x); rewrite h in h1 h2 h3.
- split; first by right; case: h1=> [->|]; [left|right].
  split; last by move=> z [<-|/h3].
  apply: tr3 h2; clear -h; case: x y h=> [a|] [b|] //= h; rewrite -leNgt; exact: ltW.
- split; first by case: h1=> [->|]; [left|right; right].
  split=> // z [<-|/h3] //; apply: tr3 h2; by rewrite h.
Qed.

Lemma lindep_well sc gc lindep eps verbose g : xlt (Fin 0) sc -> xmax gc = Ok g ->
  xlt sc (Fin (1 / lindep)) -> xlt g (Fin (1 / lindep)) ->
  @remove_linear_dep F sc (Some gc) lindep eps false verbose = Ok Unchanged.
Proof.
move=> h0 hg h1 h2; rewrite /remove_linear_dep h0 hg /=.
by case: (xlt sc g); rewrite ?h1 ?h2.
Qed.

Lemma lindep_table sc gc lindep eps force verbose g m : xlt (Fin 0) sc -> xmax gc = Ok g ->
  m = (if xlt sc g then g else sc) -> (verbose < 5)%N ->
  @remove_linear_dep F sc (Some gc) lindep eps force verbose =
    Ok (if xlt m (Fin (1 / lindep)) && ~~ force then Unchanged
        else if xlt m (Fin (1 / eps)) && ~~ force then Canonical else PivotCholesky).
Proof.
move=> h0 hg em hv; rewrite /remove_linear_dep h0 hg /= -em.
case: ifP=> //= _; rewrite /debug_cond leqNgt hv /=.
have -> : foldl (fun r _ => Base.rbind r (fun _ => debug_tuple verbose)) (Ok tt) gc = Ok tt.
  by rewrite /debug_tuple leqNgt hv /=; elim: gc {hg}.
by case: ifP.
Qed.

Lemma lindep_verbose sc gcs lindep eps force verbose m : (5 <= verbose)%N ->
  (match gcs with None => Ok (if xlt (Fin 0) sc then sc else Fin 0)
   | Some l => Base.rbind (xmax l) (fun g => let m0 := if xlt (Fin 0) sc then sc else Fin 0 in Ok (if xlt m0 g then g else m0)) end) = Ok m ->
  (force || ~~ xlt m (Fin (1 / lindep))) ->
  @remove_linear_dep F sc gcs lindep eps force verbose = Err Base.TypeError.
Proof.
move=> hv hm hf; rewrite /remove_linear_dep hm /=.
have -> : xlt m (Fin (1 / lindep)) && ~~ force = false.
  by case: force hf=> /=; rewrite ?andbF // => /negbTE->.
by rewrite /debug_cond hv.
Qed.

Lemma lindep_no_boson sc lindep eps force verbose : (verbose < 5)%N -> xlt (Fin 0) sc ->
  (force || ~~ xlt sc (Fin (1 / lindep))) ->
  @remove_linear_dep F sc None lindep eps force verbose = Err Base.UnboundLocalError.
Proof.
move=> hv h0 hf; rewrite /remove_linear_dep h0 /=.
have -> : xlt sc (Fin (1 / lindep)) && ~~ force = false.
  by case: force hf=> /=; rewrite ?andbF // => /negbTE->.
by rewrite /debug_cond leqNgt hv.
Qed.
End LinDepP.

(** * Two orbitals with overlap 3/5 *)
Definition a2 (a b c d : rat) : arr rat_realFieldType :=
  Arr 2 2 (fun i j => match i, j with 0%N, 0%N => a | 0%N, 1%N => b | 1%N, 0%N => c | 1%N, 1%N => d | _, _ => 0 end).
Definition S_w : arr rat_realFieldType := a2 1 (3%:Q / 5%:Q) (3%:Q / 5%:Q) 1.
Definition L_w : arr rat_realFieldType := a2 1 0 (3%:Q / 5%:Q) (4%:Q / 5%:Q).
Definition h_w : arr rat_realFieldType := a2 (- (41%:Q / 16%:Q)) (15%:Q / 16%:Q) (15%:Q / 16%:Q) (- (25%:Q / 16%:Q)).
Definition dpstrf_w (M : arr rat_realFieldType) (tol : rat) : arr rat_realFieldType * seq int * int * int := (L_w, [:: 1%:Z; 2%:Z], 2%:Z, 0).
Definition eigh_w (h s : arr rat_realFieldType) : (nat -> rat) * arr rat_realFieldType :=
  (fun i => match i with 0%N => - 2%:Q | 1%N => - 1 | _ => 0 end, a2 1 0 0 1).
Definition occ_w (i : nat) : rat := if i == 0%N then 2%:Q else 0.

Lemma ord2 (P : 'I_2 -> Prop) : P (inord 0) -> P (inord 1) -> forall i, P i.
Proof.
move=> h0 h1 [[|[|i]] hi] //.
- by have -> : Ordinal hi = inord 0 by apply: val_inj; rewrite /= inordK.
- by have -> : Ordinal hi = inord 1 by apply: val_inj; rewrite /= inordK.
Qed.

Lemma dpstrf_w_ok tol : dpstrf_ok 2 (mat 2 2 S_w) (dpstrf_w S_w tol).
Proof.
rewrite /dpstrf_w; split=> //; exists 1%g; split=> //.
- by apply: ord2; rewrite perm1 inordK.
- by case=> [|[|i]].
- move=> i j _ _; rewrite !big_ord_recl !big_ord0 !perm1 mxE /=.
  by elim/ord2: i; elim/ord2: j; rewrite !inordK //=; apply/eqP.
Qed.

Definition P_w : arr rat_realFieldType := a2 1 0 0 1.
Lemma mul2 (A B : 'M[rat]_2) i j : (A *m B) i j = A i (inord 0) * B (inord 0) j + A i (inord 1) * B (inord 1) j.
Proof.
rewrite mxE !big_ord_recl big_ord0 addr0; congr (_ + _).
- by have -> : ord0 = inord 0 :> 'I_2 by apply: val_inj; rewrite /= inordK.
- by have -> : lift ord0 ord0 = inord 1 :> 'I_2 by apply: val_inj; rewrite /= inordK.
Qed.
Lemma mat2E (A : arr rat_realFieldType) (i j : 'I_2) : mat 2 2 A i j = at2 A i j.
Proof. by rewrite mxE. Qed.
Lemma one_w : mat 2 2 P_w = 1%:M.
Proof.
apply/matrixP=> i j; rewrite !mxE; elim/ord2: i; elim/ord2: j; rewrite /= !inordK //= -(inj_eq val_inj) /= !inordK //.
Qed.

Lemma bindE (A B : Type) (a : A) (f : A -> res B) : Base.rbind (Ok a) f = f a.
Proof. by []. Qed.

Lemma swapped_w : exists P L h s D,
  [/\ get_cholesky dpstrf_w S_w = Ok (P, L), ao2rao h_w P = Ok h, get_reduced_overlp L = Ok s,
      gen_eig (mat 2 2 h) (mat 2 2 s) (eigh_w h s).1 (mat 2 2 (eigh_w h s).2) &
      init_guess_by_1e eigh_w dpstrf_w S_w h_w occ_w = Ok D /\
      nelec (mat 2 2 S_w) (mat 2 2 D) = 104%:Q / 25%:Q /\ \sum_(i < 2) occ_w i = 2%:Q].
Proof.
pose P0 : arr rat_realFieldType := Arr 2 2 (foldl (fun h i => foldl (fun h j => set2 h j i 0) h (iota 0 i)) (at2 L_w) (iota 0 2)).
pose L0 : arr rat_realFieldType := Arr 2 2 (foldl (fun h i => set2 h (absz (nth 0 [:: 1%:Z; 2%:Z] i)).-1 i 1) (fun _ _ => 0) (iota 0 2)).
have e0 : get_cholesky dpstrf_w S_w = Ok (P0, L0) by [].
have mP : mat 2 2 P0 = mat 2 2 L_w.
  by apply/matrixP; apply: ord2; apply: ord2; rewrite !mat2E !inordK.
have mL : mat 2 2 L0 = 1%:M.
  by rewrite -one_w; apply/matrixP; apply: ord2; apply: ord2; rewrite !mat2E !inordK.
have sh2 a b c d : shape 2 2 (a2 a b c d) by [].
have sP : shape 2 2 P0 by []. have sL : shape 2 2 L0 by []. have sh : shape 2 2 h_w by [].
have [h [e1 ssh mh]] := unitary_transform_mat sP sh.
have [s [e2 ss ms]] := mm_mat sL (shape_tr sL).
have [C2 [e4 sC2 mC2]] : exists C2, [/\ mm P0 (fix_phase (eigh_w h s).2) = Ok C2, shape 2 2 C2 & mat 2 2 C2 = mat 2 2 P0 *m mat 2 2 (fix_phase (eigh_w h s).2)].
  by apply: mm_mat.
have mf : mat 2 2 (fix_phase (eigh_w h s).2) = 1%:M.
  by rewrite -one_w; apply/matrixP; apply: ord2; apply: ord2; rewrite !mat2E !inordK.
exists P0, L0, h, s, (make_rdm1 C2 occ_w); split=> //.
- rewrite mh mP ms mat_tr mL mul1mx trmx1 /gen_eig /= one_w trmx1 !mul1mx mulmx1; split=> //.
  apply/matrixP; apply: ord2; apply: ord2; rewrite !mul2 !mxE /= -!(inj_eq val_inj) /= !inordK //=; by apply/eqP.
- split; last split.
  + have e1' : ao2rao h_w P0 = Ok h by [].
    have e5 : eigh eigh_w h s = Ok ((eigh_w h s).1, fix_phase (eigh_w h s).2).
      by rewrite /eigh; case: (ssh)=> -> ->; case: (ss)=> -> ->.
    have e6 : cholesky_diag_fock_rao eigh_w P0 L0 h_w = Ok ((eigh_w h s).1, C2).
      by rewrite /cholesky_diag_fock_rao e1' bindE /get_reduced_overlp e2 bindE e5 bindE /get_orbitals_from_rao e4.
    by rewrite /init_guess_by_1e e0 bindE e6.
  + rewrite /nelec /mxtrace !big_ord_recl big_ord0.
    have -> : mat 2 2 (make_rdm1 C2 occ_w) = mat 2 2 C2 *m diag_mx (\row_i occ_w i) *m (mat 2 2 C2)^T.
      apply/matrixP=> i j; rewrite !mxE /=; case: (sC2)=> _ ->; apply: eq_bigr=> l _.
      by rewrite mul_mx_diag !mxE [occ_w l * _]mulrC.
    rewrite mC2 mf mulmx1 mP.
    have -> : lift ord0 (ord0 : 'I_1) = inord 1 :> 'I_2 by apply: val_inj; rewrite /= inordK.
    have -> : ord0 = inord 0 :> 'I_2 by apply: val_inj; rewrite /= inordK.
    rewrite mul_mx_diag !mul2 !mxE /= !inordK //=; by apply/eqP.
  + by rewrite !big_ord_recl big_ord0 /occ_w /=; apply/eqP.
Qed.

Lemma davidson_fails aop x0 prec : davidson aop x0 prec = Err Base.TypeError.
Proof. by []. Qed.
Lemma lanczos_none matvec x0 : lanczos matvec x0 = Ok PNone.
Proof. by []. Qed.
