(** Counterexamples and runs that fail in the single-band Gutzwiller code. *)
From mathcomp Require Import all_ssreflect all_fingroup all_algebra.
From Verif Require Base.
From Verif Require Import LinProofs GwfModel GwfSpec GwfProofs GwfMore GwfLast.
Set Implicit Arguments.
Unset Strict Implicit.
Unset Printing Implicit Defensive.
Import Order.TTheory GRing.Theory Num.Theory.
Local Open Scope ring_scope.

Section Ex.
Variable F : rcfType.

Lemma h2 : 2%:R^-1 + 2%:R^-1 = 1 :> F.
Proof. by apply: half2; rewrite pnatr_eq0. Qed.
Lemma h2c : 1 - 2%:R^-1 = 2%:R^-1 :> F.
Proof. by apply/eqP; rewrite subr_eq h2. Qed.
Lemma h2gt : 0 < 2%:R^-1 :> F.
Proof. by rewrite invr_gt0 ltr0n. Qed.
Lemma sqrt_quarter : Num.sqrt (2%:R^-1 * 2%:R^-1) = 2%:R^-1 :> F.
Proof. by rewrite -expr2 sqrtr_sqr ger0_norm // ltW // h2gt. Qed.

Lemma deltas_cex : exists (h dm : 'M[F]_2) (R : 'I_2 -> F) i,
  [/\ h^T = h, dm^T = dm, forall j, 0 <= R j <= 1
    & deltas h dm R i <> \sum_j h i j * R j * dm j i].
Proof.
pose h : 'M[F]_2 := \matrix_(i, j) if i == j then 0 else 1.
exists h, (const_mx 1), (fun i => if i == 0 then 1 else 0), 0; split.
- by apply/matrixP=> i j; rewrite !mxE eq_sym.
- by apply/matrixP=> i j; rewrite !mxE.
- by move=> j; case: ifP; rewrite !(ler01, lexx).
- rewrite /deltas !big_ord_recl !big_ord0 !mxE /= !(mulr0, mul0r, addr0, add0r, mulr1).
  by apply/eqP; rewrite oner_eq0.
Qed.

(** The row of eigh's matrix that is taken is not the ground state. *)
Definition perm3 : 'M[F]_3 := \matrix_(i, j) if ((i : nat) == (j.+1 %% 3)%N) then 1 else 0.

Lemma c0_cex (eps : F) : 0 < eps -> exists delta n0 u r lam f H c,
  [/\ physical f, occupation f = n0 & emb_ham eps delta n0 u r lam f = Some H]
  /\ [/\ is_eigh H c, physical (new_site c)
  & exists g, physical g /\ ((gvec g)^T *m H *m gvec g) 0 0
      < ((gvec (new_site c))^T *m H *m gvec (new_site c)) 0 0].
Proof.
move=> he; pose q : F := 2%:R^-1.
have oq : q * q + q * q = q by rewrite -mulrDr h2 mulr1.
pose dg : 'I_3 -> F := fun i => if (i : nat) == 0%N then 0 else if (i : nat) == 1%N then - 2%:R else -1.
pose H : 'M[F]_3 := \matrix_(i, j) if i == j then dg i else 0.
exists (- (eps * q)), q, 3%:R, 1, 2%:R, (q, q, q), H, perm3; split; [split|split].
- split=> /=; try by rewrite ltW // h2gt.
  by rewrite expect1 /= oq [q * q + _]addrC -addrA oq h2.
- by [].
- rewrite /emb_ham /= oq subrr mulr0 mul0r sub0r h2c ger0_norm; last by rewrite mulr_ge0 // ltW // h2gt.
  rewrite sqrt_quarter (gt_eqF h2gt) mulNr mulfK; last by rewrite gt_eqF // h2gt.
  rewrite addNr scale0r add0r; congr Some; apply/matrixP=> i j; rewrite !mxE /dg.
  case: (i =P j) => [_|_] /=; last by rewrite !mulr0 addr0.
  case: i => [[|[|[|]]]] //= _; rewrite !(mulr0, add0r, mulr1) //.
    by rewrite mulNr mulfK // pnatr_eq0.
  by rewrite -natrM -opprB -natrB.
- exists (fun j => dg (inord (j.+1 %% 3))); split.
  + apply/matrixP=> i j; rewrite !mxE !big_ord_recl big_ord0 !mxE /=.
    by case: i => [[|[|[|]]]] //= ?; case: j => [[|[|[|]]]] //= ?; rewrite !(mulr0, mul0r, addr0, add0r, mulr1).
  + move=> j; apply/matrixP=> i k; rewrite !mxE !big_ord_recl big_ord0 !mxE /= /dg inordK ?ltn_pmod //.
    by case: i => [[|[|[|]]]] //= ?; case: j => [[|[|[|]]]] //= ?; rewrite !(mulr0, mul0r, addr0, add0r, mulr1).
  + have a1 : - 2%:R <= -1 :> F by rewrite ler_opp2 ler1n.
    have a2 : -1 <= 0 :> F by rewrite oppr_le0 ler01.
    move=> i j; rewrite /dg !inordK ?ltn_pmod //.
    by case: i => [[|[|[|]]]] //= ?; case: j => [[|[|[|]]]] //= ? _; rewrite ?lexx //; apply: le_trans a2.
- split; rewrite /= ?mxE //= ?mul0r ?ler01 //.
  by rewrite expect1 /= !mxE /= !mul0r !add0r mulr1.
- pose r2 : F := Num.sqrt 2%:R; have r0 : r2 != 0 by rewrite gt_eqF // sqrtr_gt0 ltr0n.
  exists (0, r2^-1, 0); split.
    split; rewrite /= ?lexx ?invr_ge0 ?sqrtr_ge0 //.
    by rewrite expect1 /= !mul0r add0r addr0 -invfM sqrt_sq ?ler0n // h2.
  rewrite !mxE !big_ord_recl !big_ord0 /= !mxE !big_ord_recl !big_ord0 /= !mxE /= /dg /=.
  rewrite !(mulr0, mul0r, addr0, add0r, mulr1) -/r2 divff // !(mulr1, mul1r).
  by rewrite mxE /= mul1r ltr_opp2 ltr1n.
Qed.

(** A run whose true energy is positive while zero is returned. *)
Lemma mix_double (f g : amps F) : (mix_site (7%:R / 10%:R) f g).2 ^+ 2
  = 7%:R / 10%:R * (f.2 * f.2) + (1 - 7%:R / 10%:R) * (g.2 * g.2).
Proof.
case: f => [[f0 f1] f2]; case: g => [[g0 g1] g2] /=; rewrite sqr_sqrtr //.
rewrite addr_ge0 // mulr_ge0 -?expr2 ?sqr_ge0 ?divr_ge0 ?ler0n // subr_ge0.
by rewrite ler_pdivr_mulr ?ltr0n // mul1r ler_nat.
Qed.

Lemma energy_cex (eps : F) (eigh : 'M[F]_3 -> 'M[F]_3) (n : nat) : 0 < eps -> (0 < n)%N ->
  exists solve h u conv st,
    kernel eps solve eigh h u 0 0 1 None None None = Base.Ok (conv, 0, st)
    /\ 0 < ga_energy (n := n) h (s_dm st) u (s_R st) (s_f st).
Proof.
move=> he hn; pose q : F := 2%:R^-1; have q0 : 0 < q := h2gt.
pose solve (_ : 'M[F]_n) : 'M[F]_n := q%:M.
pose f0 : amps F := (q, Num.sqrt (q * q), q).
have iE : init_site q = Some f0 by rewrite /init_site /np_sqrt h2c ltNge mulr_ge0 ?(ltW q0).
have sE i (M : 'M[F]_n) : solve M i i = q by rewrite mxE eqxx mulr1n.
have hE dl d u r lam (f : amps F) : d = q -> emb_ham eps dl d u r lam f != None.
  move=> ->; rewrite /emb_ham h2c ger0_norm ?mulr_ge0 ?(ltW q0) // sqrt_quarter (gt_eqF q0).
  by [].
have ini : [forall i, init_site (odflt (solve (qp_ham 0 (odflt (fun=> 1) None) (odflt (fun=> 0) None))) (None : option 'M[F]_n) i i) != None].
  by apply/forallP=> i /=; rewrite mxE eqxx mulr1n iE.
set X := kernel eps solve eigh 0 (fun=> 1) 0 0 1 None None None.
have [conv [st [kE pos]]] : exists conv st, X = Base.Ok (conv, 0, st)
    /\ forall i, 0 < (s_f st i).2 ^+ 2.
  rewrite /X /kernel ini /=; rewrite /cycle /update_var.
  set b := [forall i, _]; have -> : b.
    by apply/forallP=> i; apply: hE; apply: sE.
  rewrite /=; eexists; eexists; split; first by [].
  move=> i /=; rewrite mix_double ltr_paddr //.
    rewrite mulr_ge0 -?expr2 ?sqr_ge0 // subr_ge0 ler_pdivr_mulr ?ltr0n // mul1r ler_nat //.
  by rewrite mxE eqxx mulr1n iE /= !mulr_gt0 ?invr_gt0 ?ltr0n.
exists solve, 0, (fun=> 1), conv, st; split=> //.
rewrite /ga_energy big1 ?add0r => [|i _]; last by rewrite big1 // => j _; rewrite mxE mulr0 mul0r.
have i0 : 'I_n := Ordinal hn.
rewrite (bigD1 (Ordinal hn)) //= ltr_paddr //.
  by apply: sumr_ge0=> i _; rewrite mul1r double -expr2 sqr_ge0.
by rewrite mul1r double -expr2.
Qed.

(** Runs that raise. *)
Lemma kernel_nan (eps : F) n solve eigh h u tol tolg k (R0 lam0 : option ('I_n -> F)) (dm0 : option 'M[F]_n) i :
  let dm := odflt (solve (qp_ham h (odflt (fun=> 1) R0) (odflt (fun=> 0) lam0))) dm0 in
  ~~ (0 <= dm i i <= 1) ->
  kernel eps solve eigh h u tol tolg k.+1 R0 lam0 dm0 = Base.Err Base.ValueError.
Proof.
move=> dm hd; rewrite /kernel; case: ifP=> // /forallP /(_ i); rewrite -/dm init_nan //.
Qed.

Lemma kernel_empty_full (eps : F) n (solve : 'M[F]_n -> 'M[F]_n) eigh h u tol tolg k (R0 lam0 : option ('I_n -> F)) (dm0 : option 'M[F]_n) :
  (forall M, exists i, solve M i i = 0 \/ solve M i i = 1) ->
  kernel eps solve eigh h u tol tolg k.+1 R0 lam0 dm0 = Base.Err Base.ValueError.
Proof.
move=> hs; rewrite /kernel; case: ifP=> // _ /=.
set c := cycle _ _ _ _ _ _ _ _; have -> // : c = Base.Err Base.ValueError.
rewrite /c /cycle /update_var; set M := qp_ham _ _ _; have [i hi] := hs M.
case: ifP=> // /forallP /(_ i); rewrite /emb_ham.
suff -> : `|solve M i i * (1 - solve M i i)| = 0 by rewrite sqrtr0 eqxx.
by case: hi => ->; rewrite ?mul0r ?subrr ?mulr0 normr0.
Qed.

Lemma trace_big n (dm : 'M[F]_n) : n%:R < \tr dm -> exists i, ~~ (0 <= dm i i <= 1).
Proof.
move=> ht; case: (pickP (fun i => 1 < dm i i)) => [i hi|hn].
  by exists i; rewrite [dm i i <= 1]leNgt hi andbF.
suff : \tr dm <= n%:R by rewrite leNgt ht.
rewrite -[n in leRHS]card_ord -sum1_card natr_sum; apply: ler_sum=> i _.
by rewrite leNgt hn.
Qed.

Lemma kernel_zero (eps : F) n solve eigh h u tol tolg (R0 lam0 : option ('I_n -> F)) dm0 :
  kernel eps solve eigh h u tol tolg 0 R0 lam0 dm0 = Base.Err Base.UnboundLocalError.
Proof. by []. Qed.

Lemma closed_shell_twice (n0 : F) f : init_site n0 = Some f ->
  expect f (num (c_up F)) + expect f (num (c_dn F)) = 2%:R * n0.
Proof.
by move/init_norm=> [_ o]; have [<- <-] := occupationE f; rewrite o mulr_natl mulr2n.
Qed.
End Ex.

(** The flag *)
Lemma ga_loop_flag (S : Type) (step : S -> Base.res (S * bool)) k : forall c st r,
  ga_loop step k c st = Base.Ok r ->
  exists (s : nat -> S) (t : nat -> bool),
    [/\ s 0%N = st, s k = r.2, forall j, (j < k)%N -> step (s j) = Base.Ok (s j.+1, t j)
      & r.1 = c || has t (iota 0 k)].
Proof.
elim: k => [|k IH] c st r /=.
  by case=> <-; exists (fun=> st), (fun=> false); split=> //; rewrite orbF.
case e: (step st) => [[st' b]|] //= /IH [s [t [h1 h2 h3 h4]]].
exists (fun j => if j is j'.+1 then s j' else st), (fun j => if j is j'.+1 then t j' else b).
split=> //.
- by case=> [_|j hj] /=; [rewrite h1 | apply: h3].
- rewrite h4 -orbA; congr (_ || (_ || _)); rewrite -[1%N]addn0 iotaDl has_map.
  exact: eq_has.
Qed.

Lemma sticky : exists (step : nat -> Base.res (nat * bool)) st r,
  ga_loop step 2 false st = Base.Ok r /\ r.1 = true /\ step 1%N = Base.Ok (r.2, false).
Proof. by exists (fun j => Base.Ok (j.+1, j == 0%N)), 0%N, (true, 2%N). Qed.

Lemma cycle_test (F : rcfType) (eps : F) (n : nat) solve eigh (h : 'M[F]_n) u tol tolg st st' b :
  cycle eps solve eigh h u tol tolg st = Base.Ok (st', b) ->
  b = (Num.sqrt (\sum_i (((s_f st i).1.1 - (s_f st' i).1.1) ^+ 2
                         + ((s_f st i).1.2 - (s_f st' i).1.2) ^+ 2
                         + ((s_f st i).2 - (s_f st' i).2) ^+ 2)) < tol)
      || (lambda_err (s_dm st') (s_f st') < tolg).
Proof.
rewrite /cycle; case: (update_var _ _ _ _ _ _ _ _) => //= f [<- <-] /=.
congr ((_ < _) || _); rewrite /gnorm; congr Num.sqrt; apply: eq_bigr => i _; by rewrite !expr2.
Qed.
Lemma kernel_flag (F : rcfType) (eps : F) (n : nat) solve eigh (h : 'M[F]_n) u tol tolg
    k R0 lam0 dm0 conv e st :
  kernel eps solve eigh h u tol tolg k R0 lam0 dm0 = Base.Ok (conv, e, st) ->
  exists (s : nat -> gstate F n) (t : nat -> bool),
    [/\ s k = st, forall j, (j < k)%N -> cycle eps solve eigh h u tol tolg (s j) = Base.Ok (s j.+1, t j)
      & conv = has t (iota 0 k)].
Proof.
rewrite /kernel; case: k => // k; case: ifP => // _.
case E: (ga_loop _ _ _ _) => [r|] //= [h1 _ h2]; have [s [t [_ s2 s3 s4]]] := ga_loop_flag E.
by exists s, t; rewrite -h1 -h2 s2 s4.
Qed.
