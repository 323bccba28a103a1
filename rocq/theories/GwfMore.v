(** Proofs about the single-band Gutzwiller approximation: the loop, the
    embedding Hamiltonian, densities. *)
From mathcomp Require Import all_ssreflect all_fingroup all_algebra.
From Verif Require Base.
From Verif Require Import LinProofs GwfModel GwfSpec GwfProofs.
Set Implicit Arguments.
Unset Strict Implicit.
Unset Printing Implicit Defensive.
Import Order.TTheory GRing.Theory Num.Theory.
Local Open Scope ring_scope.

Section Embedding.
Variables (F : rcfType) (eps : F).
Hypothesis He : 0 < eps.
Implicit Type f : amps F.

Definition gvec f : 'cV[F]_3 := \col_i
  (if (i : nat) == 0%N then f.1.1 else if (i : nat) == 1%N then Num.sqrt 2%:R * f.1.2 else f.2).

Lemma emb_sym delta n0 u r lam f H : emb_ham eps delta n0 u r lam f = Some H -> H^T = H.
Proof.
rewrite /emb_ham; case: ifP=> // _ [<-]; apply/matrixP=> i j; rewrite !mxE orbC.
have -> : (j == i) = (i == j) by rewrite eq_sym.
by case: (i =P j) => [->|].
Qed.

Lemma sq2 : Num.sqrt 2%:R * Num.sqrt 2%:R = 1 + 1 :> F.
Proof. by rewrite sqrt_sq ?ler0n // -natrD. Qed.

Lemma emb_energy delta n0 u r lam f' H : emb_ham eps delta n0 u r lam f' = Some H ->
  let nf := occupation f' in
  let mu := - 4%:R * `|r * delta| * (nf - 2%:R^-1) / (`|nf * (1 - nf)| + eps) - 2%:R * lam in
  forall f, ((gvec f)^T *m H *m gvec f) 0 0
  = 2%:R * (delta / Num.sqrt `|n0 * (1 - n0)| + eps) * (hopping f (c_up F) + hopping f (c_dn F))
    + u * expect f (num (c_up F) *m num (c_dn F)) + mu * expect f (num (c_up F)).
Proof.
rewrite /emb_ham; case: ifP=> // _ [<-]; set k := _ + eps; set m := _ - _ => /= f.
rewrite hop_up hop_dn double num_up.
rewrite mxE !big_ord_recl big_ord0 /= !mxE !big_ord_recl !big_ord0 /= !mxE /=.
rewrite !(mulr0, mul0r, addr0, add0r, mulr1).
set s := Num.sqrt _; case: f => [[a b] c] /=.
by rewrite (ab_emb (frt F) _ _ _ _ _ _ (half2 _) sq2) ?pnatr_eq0 // -natrD.
Qed.

Lemma gvec_norm f : ((gvec f)^T *m gvec f) 0 0 = expect f 1%:M.
Proof.
rewrite expect1 mxE !big_ord_recl big_ord0 /= !mxE /= addr0 addrA mulrACA sq2.
by rewrite mulrDl !mul1r.
Qed.
End Embedding.

Section Loop.
Variables (F : rcfType) (eps : F) (n : nat).
Hypothesis He : 0 < eps.
Variables (solve : 'M[F]_n -> 'M[F]_n) (eigh : 'M[F]_3 -> 'M[F]_3) (h : 'M[F]_n) (u : 'I_n -> F) (tol tolg : F).
Hypothesis Hc : forall H, H^T = H -> (eigh H)^T *m eigh H = 1%:M.

Lemma ga_loopE (S : Type) (step : S -> Base.res (S * bool)) k : forall conv st r,
  ga_loop step k conv st = Base.Ok r ->
  forall P : S -> Prop, P st -> (forall x y b, P x -> step x = Base.Ok (y, b) -> P y) -> P r.2.
Proof.
elim: k => [|k IH] conv st r /=; first by case=> <-.
case e: (step st) => [[st' b]|] //= hl P p0 ps.
by apply: (IH _ _ _ hl P _ ps); apply: (ps _ _ _ p0 e).
Qed.

Lemma cycle_physical st st' b : (forall i, physical (s_f st i)) ->
  cycle eps solve eigh h u tol tolg st = Base.Ok (st', b) ->
  (forall i, physical (s_f st' i)) /\ (forall i, 0 <= s_R st' i <= 1).
Proof.
move=> ph; rewrite /cycle /update_var.
set dm := solve _; set dl := deltas _ _ _; case: ifP=> //= /forallP hs [<- _] /=; split=> i /=.
  have := hs i; case e: (emb_ham _ _ _ _ _ _ _) => [H|] //= _.
  have o := Hc (emb_sym e).
  apply: mix_physical.
  - rewrite divr_ge0 ?ler0n //= ler_pdivr_mulr ?ltr0n // mul1r ler_nat //.
  - by have [] := ph i.
  - exact: row_norm o.
by have [_ a b' c] := ph i; apply: renorm_bounds.
Qed.

Lemma kernel_physical k R0 lam0 dm0 conv e st :
  kernel eps solve eigh h u tol tolg k R0 lam0 dm0 = Base.Ok (conv, e, st) ->
  (forall i, physical (s_f st i)) /\ (forall i, 0 <= s_R st i <= 1).
Proof.
rewrite /kernel; case: k => // k; case: ifP=> // /forallP hs.
set dm := odflt _ dm0; set st0 := GState _ _ _ _.
have p0 i : physical (s_f st0 i).
  by rewrite /=; have := hs i; case e0: (init_site _) => [f|] //= _; have [] := init_norm e0.
rewrite /= ; case e1: (cycle _ _ _ _ _ _ _ _) => [[st1 b]|] //=.
have [q1 q2] := cycle_physical p0 e1.
case e2: (ga_loop _ _ _ _) => [r|] //= [_ _ <-].
apply: (ga_loopE e2 (P := fun s => (forall i, physical (s_f s i)) /\ (forall i, 0 <= s_R s i <= 1))) => //.
by move=> x y b' [px _]; apply: cycle_physical.
Qed.

Lemma kernel_energy k R0 lam0 dm0 conv e st :
  kernel eps solve eigh h u tol tolg k R0 lam0 dm0 = Base.Ok (conv, e, st) -> e = 0.
Proof.
rewrite /kernel; case: k => // k; case: ifP=> // _; case: (ga_loop _ _ _ _) => [r|] //= [].
by [].
Qed.
End Loop.
