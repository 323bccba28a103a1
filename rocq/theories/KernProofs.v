(** Proofs for the compiled kernels. *)
From Coq Require Import List.
From mathcomp Require Import all_ssreflect all_algebra.
From Verif Require Base LinModel LinSpec LinProofs.
From Verif Require Import KernModel KernSpec.
Set Implicit Arguments.
Unset Strict Implicit.
Unset Printing Implicit Defensive.
Import GRing.Theory.
Local Open Scope ring_scope.

(** * OpenMP loops *)
Section Omp.
Variables (F P : Type) (region : nat -> pred nat).
Hypothesis disj : forall w v y, w != v -> region w y -> ~~ region v y.
Definition local (w : nat) (a : action F P) : Prop :=
  (forall p s y, ~~ region w y -> (a p s).2 y = s y) /\
  (forall p s s', (forall y, region w y -> s y = s' y) ->
     (a p s).1 = (a p s').1 /\ forall y, region w y -> (a p s).2 y = (a p s').2 y).
Definition alone (prog : seq (action F P)) (p : P) (s : mem F) : P * mem F :=
  foldl (fun ps a => a ps.1 ps.2) (p, s) prog.

Lemma in_proj (x : nat * action F P) trace : List.In x trace ->
  List.In x.2 [seq y.2 | y <- trace & y.1 == x.1].
Proof.
elim: trace => [//|y trace IH] /= [->|h]; first by rewrite eqxx; left.
by case: eqP => _ /=; [right|]; exact: IH.
Qed.
Lemma run_alone w : forall trace st p s, (forall x, List.In x trace -> local x.1 x.2) ->
  priv st w = p -> (forall y, region w y -> shared st y = s y) ->
  let r := alone [seq x.2 | x <- trace & x.1 == w] p s in
  priv (run trace st) w = r.1 /\ forall y, region w y -> shared (run trace st) y = r.2 y.
Proof.
elim=> [|[v a] trace IH] st p s hl hp hs //=.
have la := hl (v, a) (or_introl erefl); have hl' x : List.In x trace -> local x.1 x.2 by move=> h; apply: hl; right.
case E: (a (priv st v) (shared st)) => [p' s'].
have H1 y : ~~ region v y -> s' y = shared st y by move=> h; have /= := la.1 (priv st v) (shared st) y h; rewrite E.
case: eqP => [vw|/eqP vw] /=.
  subst v; have [e1 e2] := la.2 p (shared st) s hs; move: E e1 e2; rewrite /= hp => E e1 e2.
  case E2: (a p s) => [p2 s2]; rewrite E E2 /= in e1 e2.
  rewrite /alone /= E2; apply: IH => //.
    by rewrite /event /= hp E /= eqxx.
  by rewrite /event /= hp E /=.
apply: IH => //; rewrite /event /= E /=.
  by rewrite eq_sym (negbTE vw).
by move=> y hy; rewrite H1 ?hs //; apply: (disj _ hy); rewrite eq_sym.
Qed.
Lemma run_outside : forall trace st y, (forall x, List.In x trace -> local x.1 x.2) ->
  (forall x, List.In x trace -> ~~ region x.1 y) -> shared (run trace st) y = shared st y.
Proof.
elim=> [|[v a] trace IH] st y hl hy //=.
rewrite IH; [|by move=> x h; apply: hl; right|by move=> x h; apply: hy; right].
rewrite /event /=; case E: (a _ _) => [p' s'] /=.
have := (hl (v, a) (or_introl erefl)).1 (priv st v) (shared st) y (hy (v, a) (or_introl erefl)).
by rewrite /= E.
Qed.
Lemma omp nw prog trace st : interleaving nw prog trace ->
  (forall w a, (w < nw)%N -> List.In a (prog w) -> local w a) ->
  (forall w y, (w < nw)%N -> region w y ->
    shared (run trace st) y = (alone (prog w) (priv st w) (shared st)).2 y) /\
  (forall y, (forall w, (w < nw)%N -> ~~ region w y) -> shared (run trace st) y = shared st y).
Proof.
move=> [ha hp] hl.
have hin x : List.In x trace -> (x.1 < nw)%N /\ List.In x.2 (prog x.1).
  move=> hx; have lt : (x.1 < nw)%N.
    elim: trace ha {hp} hx => [//|y t IH] /= /andP[h1 h2] [<- //|h]; exact: IH.
  by split=> //; rewrite -hp //; apply: in_proj.
have hloc x : List.In x trace -> local x.1 x.2 by case/hin => h1 h2; apply: hl.
split.
  by move=> w y hw hy; have [_] := @run_alone w trace st _ (shared st) hloc erefl (fun y _ => erefl); rewrite hp //; apply.
by move=> y hy; apply: run_outside => // x /hin[h1 _]; apply: hy.
Qed.
End Omp.

(** ** slices of a flat array *)
Definition slice (k w : nat) : pred nat := fun y => (w * k <= y < w * k + k)%N.
Lemma slice_disj k w v y : w != v -> slice k w y -> ~~ slice k v y.
Proof.
rewrite /slice -!mulSnr => /eqP ne /andP[h1 h2]; apply/negP => /andP[h3 h4]; apply: ne.
have e u : (u * k <= y < u.+1 * k)%N -> u = (y %/ k)%N.
  case/andP => a b; have k0 : (0 < k)%N by case: (k) a b => [|//]; rewrite !muln0 ltn0.
  by apply/eqP; rewrite eqn_leq leq_divRL // a /= -ltnS ltn_divLR.
by rewrite (e w) ?h1 // (e v) // h3.
Qed.
Lemma slice_in k w x : (x < k)%N -> slice k w (w * k + x)%N.
Proof. by move=> h; rewrite /slice leq_addr ltn_add2l. Qed.
Lemma slice_split k w y : slice k w y -> exists2 x, (x < k)%N & y = (w * k + x)%N.
Proof.
case/andP => a b; exists (y - w * k)%N; last by rewrite subnKC.
by rewrite ltn_subLR.
Qed.

Lemma eq_mkseq_lt (T : Type) (f g : nat -> T) k : (forall x, (x < k)%N -> f x = g x) -> mkseq f k = mkseq g k.
Proof.
move=> h; case: k h => [|k] h //; apply: (@eq_from_nth _ (f 0%N)); first by rewrite !size_mkseq.
by move=> i; rewrite size_mkseq => hi; rewrite !nth_mkseq // h.
Qed.

Section Kernels.
Variables (F : fieldType) (conj : {rmorphism F -> F}).
Notation mem := (mem F).
Implicit Types (s op phi phiw psi rl rla rlb G Ga Gb A B junk : mem).

Lemma store_local (P : Type) (reg : nat -> pred nat) w y (f : P -> mem -> F) : reg w y ->
  (forall p s s', (forall z, reg w z -> s z = s' z) -> f p s = f p s') -> local reg w (store y f).
Proof.
move=> hy hf; split=> [p s z hz|p s s' h] /=.
  by case: eqP => // e; rewrite e hy in hz.
by split=> // z hz; case: eqP => _; [apply: hf|apply: h].
Qed.
Lemma iota_last k : iota 0 k.+1 = iota 0 k ++ [:: k].
Proof. by rewrite -addn1 iotaD add0n. Qed.
(** a run of assignments to consecutive entries *)
Lemma alone_cat (P : Type) (a b : seq (action F P)) p s :
  alone (a ++ b) p s = alone b (alone a p s).1 (alone a p s).2.
Proof. by rewrite /alone foldl_cat; case: (foldl _ _ a). Qed.
Lemma stores (P : Type) b (f : nat -> P -> mem -> F) k p s :
  (forall x p s s', s (b + x)%N = s' (b + x)%N -> f x p s = f x p s') ->
  let r := alone [seq store (b + x) (f x) | x <- iota 0 k] p s in
  r.1 = p /\ forall y, r.2 y = if (b <= y < b + k)%N then f (y - b)%N p s else s y.
Proof.
move=> hf; elim: k => [|k IH].
  by split=> // y /=; rewrite addn0; case: ltnP => // h; rewrite ?andbF // leqNgt h.
rewrite iota_last map_cat alone_cat.
case: IH; set r := alone _ _ _ => r1 r2; rewrite /alone /= r1; split=> // y; rewrite r2.
case: eqP => [->|ne].
  rewrite leq_addr ltn_add2l ltnSn addKn; apply: hf.
  by rewrite r2 ltnn andbF.
have -> : (y < b + k.+1)%N = (y < b + k)%N; last by [].
by rewrite addnS ltnS leq_eqVlt; case: eqP.
Qed.
Lemma in_map_iota (T : Type) (f : nat -> T) a k : List.In a [seq f x | x <- iota 0 k] -> exists2 x, (x < k)%N & a = f x.
Proof.
elim: k => [//|k IH]; rewrite iota_last map_cat => /(proj1 (List.in_app_iff _ _ _))[/IH[x hx ->]|/= []// <-].
  by exists x => //; rewrite ltnS ltnW.
by exists k.
Qed.

(** ** BLAS *)
Definition mxm (n m : nat) (s : mem) : 'M[F]_(n, m) := \matrix_(i, j) s (i * m + j)%N.
Lemma idx_div m i j : (j < m)%N -> ((i * m + j) %/ m = i)%N.
Proof. by move=> h; rewrite divnMDl ?(leq_ltn_trans _ h) // divn_small // addn0. Qed.
Lemma idx_mod m i j : (j < m)%N -> ((i * m + j) %% m = j)%N.
Proof. by move=> h; rewrite modnMDl modn_small. Qed.
Lemma idx_lt n m i j : (i < n)%N -> (j < m)%N -> (i * m + j < n * m)%N.
Proof.
move=> hi hj; apply: (@leq_trans (i * m + m)); first by rewrite ltn_add2l.
by rewrite -mulSnr leq_mul2r hi orbT.
Qed.
Lemma gemm_nth ta M N K A lda B ldb i j : (i < M)%N -> (j < N)%N ->
  nth 0 (gemm ta M N K A lda B ldb) (i * N + j) =
  \sum_(l < K) (if ta then A (l * lda + i)%N else A (i * lda + l)%N) * B (l * ldb + j)%N :> F.
Proof. by move=> hi hj; rewrite nth_mkseq ?idx_lt // idx_div ?idx_mod. Qed.
Lemma gemm_nn n m k A B : mxm n m (of_vec (gemm false n m k A k B m)) = mxm n k A *m mxm k m B.
Proof. by apply/matrixP => i j; rewrite !mxE /of_vec gemm_nth //; apply: eq_bigr => l _; rewrite !mxE. Qed.
Lemma gemm_tn n m k A B : mxm n m (of_vec (gemm true n m k A n B m)) = (mxm k n A)^T *m mxm k m B.
Proof. by apply/matrixP => i j; rewrite !mxE /of_vec gemm_nth //; apply: eq_bigr => l _; rewrite !mxE. Qed.
Lemma mxm_at n m s w : mxm n m (at_ptr s (w * (n * m))) = matrix_at n m s w.
Proof. by apply/matrixP => i j; rewrite !mxE /at_ptr /entry mulnDl mulnA addnA. Qed.
Lemma slab_at n m s w : slab n m s w = matrix_at n m s w.
Proof. by apply/matrixP => i j; rewrite !mxE /entry mulnDl mulnA. Qed.

Lemma flat n m w i j : ((w * n + i) * m + j = w * (n * m) + (i * m + j))%N.
Proof. by rewrite mulnDl mulnA addnA. Qed.
Lemma at_flat n m s w i j : matrix_at n m s w i j = s (w * (n * m) + (i * m + j))%N.
Proof. by rewrite mxE /entry flat. Qed.

(** every iteration only touches its slice *)
Lemma omp_slices (P : Type) k nw (prog : nat -> seq (action F P)) trace st :
  interleaving nw prog trace -> (forall w a, (w < nw)%N -> List.In a (prog w) -> local (slice k) w a) ->
  (forall w x, (w < nw)%N -> (x < k)%N ->
    shared (run trace st) (w * k + x)%N = (alone (prog w) (priv st w) (shared st)).2 (w * k + x)%N) /\
  (forall y, (nw * k <= y)%N -> shared (run trace st) y = shared st y).
Proof.
move=> hi hl; have [h1 h2] := omp (@slice_disj k) st hi hl; split.
  by move=> w x hw hx; apply: h1 => //; apply: slice_in.
move=> y hy; apply: h2 => w hw; rewrite /slice -mulSnr negb_and -!leqNgt; apply/orP; right.
by apply: leq_trans hy; rewrite leq_mul2r hw orbT.
Qed.

(** writing a product *)
Lemma stores_local (P : Type) k w (f : nat -> P -> mem -> F) :
  (forall x p s s', s (w * k + x)%N = s' (w * k + x)%N -> f x p s = f x p s') ->
  forall a, List.In a [seq store (w * k + x) (f x) | x <- iota 0 k] -> local (slice k) w a.
Proof.
move=> hf a ha; have [x hx ->] := in_map_iota ha; apply: (@store_local P (slice k)); first exact: slice_in.
by move=> p s s' h; apply: hf; exact: (h _ (slice_in w hx)).
Qed.
Lemma stores_at (P : Type) k w (f : nat -> P -> mem -> F) p s x : (x < k)%N ->
  (forall x p s s', s (w * k + x)%N = s' (w * k + x)%N -> f x p s = f x p s') ->
  (alone [seq store (w * k + x) (f x) | x <- iota 0 k] p s).2 (w * k + x)%N = f x p s.
Proof.
by move=> hx hf; have [_ ->] := @stores P (w * k) f k p s hf; rewrite leq_addr ltn_add2l hx addKn.
Qed.

Lemma onebody_ok nw n m op phi trace junk : interleaving nw (onebody_prog n m op phi) trace ->
  (forall w, (w < nw)%N ->
    matrix_at n m (shared (run trace (State (fun=> tt) junk))) w = mxm n n op *m matrix_at n m phi w).
Proof.
move=> hi w hw; have hl v a : (v < nw)%N -> List.In a (onebody_prog n m op phi v) -> local (slice (n * m)) v a.
  by move=> _; apply: stores_local.
have [h _] := omp_slices (State (fun=> tt) junk) hi hl.
rewrite -[matrix_at n m phi w]mxm_at -gemm_nn; apply/matrixP => i j; rewrite at_flat h ?idx_lt // stores_at ?idx_lt // mxE //.
Qed.

(** ** the exponential *)
Lemma hs_turn_ok n m op w k (p : vecs F) s :
  let r := alone (hs_turn n m op w k) p s in
  [/\ mxm n m (of_vec r.1.1) = k%:R^-1 *: (matrix_at n n op w *m mxm n m (of_vec p.1)) &
      matrix_at n m r.2 w = matrix_at n m s w + mxm n m (of_vec r.1.1)].
Proof.
have alone1 (a : action F (vecs F)) q t : alone [:: a] q t = a q t by rewrite /alone /=; case: (a q t).
rewrite /hs_turn; cbv zeta; rewrite (alone_cat [:: _; _]) (alone_cat [seq _ | _ <- _]) alone1.
set p1 := (alone [:: _; _] p s).1; have -> : (alone [:: hs_gemm n m op w; hs_scal k] p s).2 = s by [].
have [a1 a2] := @stores _ (w * (n * m)) (fun x (q : vecs F) s => s (w * (n * m) + x)%N + nth 0 q.2 x) (n * m) p1 s
  (fun x q s s' e => f_equal (fun z => z + nth 0 q.2 x) e).
rewrite /hs_move /=.
rewrite /hs_axpy a1; split.
  rewrite -[matrix_at n n op w]mxm_at -gemm_nn; apply/matrixP => i j; rewrite !mxE /of_vec /p1 /alone /=.
  by rewrite (nth_map 0) // size_mkseq idx_lt.
by apply/matrixP => i j; rewrite !mxE /entry flat a2 leq_addr ltn_add2l idx_lt // addKn.
Qed.
Lemma hs_turns_ok n m op w : forall fuel k (p : vecs F) s,
  matrix_at n m (alone (flatten [seq hs_turn n m op w i | i <- iota k.+1 fuel]) p s).2 w =
  LinModel.taylor_loop (matrix_at n n op w) k fuel (mxm n m (of_vec p.1)) (matrix_at n m s w).
Proof.
elim=> [|fuel IH] k p s //.
have -> : flatten [seq hs_turn n m op w i | i <- iota k.+1 fuel.+1] =
  hs_turn n m op w k.+1 ++ flatten [seq hs_turn n m op w i | i <- iota k.+2 fuel] by [].
rewrite alone_cat IH.
by have [-> ->] := hs_turn_ok n m op w k.+1 p s; have [-> _] := hs_turn_ok n m op w k.+1 p s.
Qed.
Lemma hs_alone n m op order w (p : vecs F) s :
  matrix_at n m (alone (hs_prog n m op order w) p s).2 w =
  LinModel.propagate_exp_op (matrix_at n n op w) order (matrix_at n m s w).
Proof.
rewrite /hs_prog -cat1s alone_cat /= hs_turns_ok /LinModel.propagate_exp_op; congr LinModel.taylor_loop.
by apply/matrixP => i j; rewrite !mxE /of_vec nth_mkseq ?idx_lt // /entry flat.
Qed.
Lemma axpys_local n m w a : List.In a [seq @hs_axpy F n m w x | x <- iota 0 (n * m)] -> local (slice (n * m)) w a.
Proof. by apply: stores_local => x q s s' ->. Qed.
Lemma pure_local (P : Type) reg w (f : P -> P) : local reg w (fun p (s : mem) => (f p, s)).
Proof. by split. Qed.
Lemma copy_local n m w : local (slice (n * m)) w (@hs_copy F n m w).
Proof.
split=> // p s s' h; split=> //=; congr (_, _); apply: eq_mkseq_lt => x hx.
by apply: h; apply: slice_in.
Qed.
Lemma in_flat (T : Type) (f : nat -> seq T) a l : List.In a (flatten [seq f k | k <- l]) -> exists k, List.In a (f k).
Proof.
elim: l => [//|k l IH] /= /(proj1 (List.in_app_iff _ _ _))[h|/IH //]; by exists k.
Qed.
Lemma hs_local n m op order w a : List.In a (hs_prog n m op order w) -> local (slice (n * m)) w a.
Proof.
case=> [<-|h]; first exact: copy_local.
have [k hk] := in_flat h; move: hk.
rewrite /hs_turn; case=> [<-|]; first exact: (@pure_local (vecs F) (slice (n * m)) w (fun p => (p.1, _))).
case=> [<-|]; first exact: (@pure_local (vecs F) (slice (n * m)) w (fun p => (p.1, _))).
move=> hk; case: (proj1 (List.in_app_iff _ _ _) hk) => [|[<-|//]]; first exact: axpys_local.
exact: (@pure_local (vecs F) (slice (n * m)) w (fun p : vecs F => (p.2, [::]))).
Qed.
Lemma hs_ok nw n m op order trace st : interleaving nw (hs_prog n m op order) trace ->
  forall w, (w < nw)%N ->
    matrix_at n m (shared (run trace st)) w =
    LinModel.propagate_exp_op (matrix_at n n op w) order (matrix_at n m (shared st) w).
Proof.
move=> hi w hw; have [h _] := omp_slices st hi (fun w a _ => @hs_local n m op order w a).
rewrite -(hs_alone _ _ _ _ _ (priv st w)).
by apply/matrixP => i j; rewrite !at_flat h ?idx_lt.
Qed.
Lemma hs_outside nw n m op order trace st y : interleaving nw (hs_prog n m op order) trace ->
  (nw * (n * m) <= y)%N -> shared (run trace st) y = shared st y.
Proof. by move=> hi; have [_] := omp_slices st hi (fun w a _ => @hs_local n m op order w a); apply. Qed.
Lemma onebody_outside nw n m op phi trace st y : interleaving nw (onebody_prog n m op phi) trace ->
  (nw * (n * m) <= y)%N -> shared (run trace st) y = shared st y.
Proof.
move=> hi; have hl v a : (v < nw)%N -> List.In a (onebody_prog n m op phi v) -> local (slice (n * m)) v a.
  by move=> _; apply: stores_local.
by have [_] := omp_slices st hi hl; apply.
Qed.
Lemma alone1 (P : Type) (a : action F P) q t : alone [:: a] q t = a q t.
Proof. by rewrite /alone /=; case: (a q t). Qed.

(** the real version *)
Lemma hsr_turn_ok n m op w k (p : vecs F) s :
  let r := alone (hsr_turn n m op w k) p s in
  [/\ mxm n m (of_vec r.1.1) = matrix_at n n op w *m mxm n m (of_vec p.1) &
      matrix_at n m r.2 w = matrix_at n m s w + k%:R^-1 *: mxm n m (of_vec r.1.1)].
Proof.
rewrite /hsr_turn; cbv zeta; rewrite (alone_cat [:: _]) (alone_cat [seq _ | _ <- _]) !alone1.
set p1 := (hs_gemm n m op w p s).1; have -> : (hs_gemm n m op w p s).2 = s by [].
have [a1 a2] := @stores _ (w * (n * m)) (fun x (q : vecs F) s => s (w * (n * m) + x)%N + nth 0 q.2 x / k%:R) (n * m) p1 s
  (fun x q s s' e => f_equal (fun z => z + nth 0 q.2 x / k%:R) e).
rewrite /hs_move /=.
rewrite /hs_add a1; split.
  by rewrite -[matrix_at n n op w]mxm_at -gemm_nn.
by apply/matrixP => i j; rewrite !mxE /entry flat a2 leq_addr ltn_add2l idx_lt // addKn mulrC.
Qed.
Lemma hsr_turns_ok n m op w : forall fuel k (p : vecs F) s,
  matrix_at n m (alone (flatten [seq hsr_turn n m op w i | i <- iota k.+1 fuel]) p s).2 w =
  matrix_at n m s w + \sum_(i < fuel) (k + i).+1%:R^-1 *: iter i.+1 (mulmx (matrix_at n n op w)) (mxm n m (of_vec p.1)).
Proof.
elim=> [|fuel IH] k p s; first by rewrite big_ord0 addr0.
have -> : flatten [seq hsr_turn n m op w i | i <- iota k.+1 fuel.+1] =
  hsr_turn n m op w k.+1 ++ flatten [seq hsr_turn n m op w i | i <- iota k.+2 fuel] by [].
rewrite alone_cat IH; have [h1 h2] := hsr_turn_ok n m op w k.+1 p s.
rewrite h2 h1 big_ord_recl addn0 -addrA; congr (_ + (_ + _)); apply: eq_bigr => i _.
by rewrite lift0 addSnnS [in RHS]iterSr.
Qed.
Lemma hsr_alone n m op order w (p : vecs F) s :
  matrix_at n m (alone (hsr_prog n m op order w) p s).2 w = harmonic_terms (matrix_at n n op w) order (matrix_at n m s w).
Proof.
rewrite /hsr_prog -cat1s alone_cat alone1 hsr_turns_ok /harmonic_terms; congr (_ + _).
apply: eq_bigr => k _; congr (_ *: iter _ _ _).
by apply/matrixP => i j; rewrite !mxE /of_vec nth_mkseq ?idx_lt // /entry flat.
Qed.
Lemma hsr_local n m op order w a : List.In a (hsr_prog n m op order w) -> local (slice (n * m)) w a.
Proof.
case=> [<-|h]; first exact: copy_local.
have [k hk] := in_flat h; move: hk.
rewrite /hsr_turn; case=> [<-|]; first exact: (@pure_local (vecs F) (slice (n * m)) w (fun p => (p.1, _))).
move=> hk; case: (proj1 (List.in_app_iff _ _ _) hk) => [|[<-|//]].
  by apply: stores_local => x q s s' ->.
exact: (@pure_local (vecs F) (slice (n * m)) w (fun p : vecs F => (p.2, [::]))).
Qed.
Lemma hsr_ok nw n m op order trace st : interleaving nw (hsr_prog n m op order) trace ->
  forall w, (w < nw)%N ->
    matrix_at n m (shared (run trace st)) w = harmonic_terms (matrix_at n n op w) order (matrix_at n m (shared st) w).
Proof.
move=> hi w hw; have [h _] := omp_slices st hi (fun w a _ => @hsr_local n m op order w a).
rewrite -(hsr_alone _ _ _ _ _ (priv st w)).
by apply/matrixP => i j; rewrite !at_flat h ?idx_lt.
Qed.
Lemma exp_termsE n m (A : 'M[F]_n) order (X : 'M[F]_(n, m)) : LinModel.propagate_exp_op A order X = exp_terms A order X.
Proof. exact: LinProofs.taylorE. Qed.

(** ** the arrays of the Python side *)
Lemma unslab_at n m (X : nat -> 'M[F]_(n, m)) w : matrix_at n m (unslab X) w = X w.
Proof.
apply/matrixP => i j; rewrite mxE /entry /unslab.
have ei : (((w * n + i) * m + j) %/ m = w * n + i)%N by rewrite idx_div.
have ej : (((w * n + i) * m + j) %% m = j)%N by rewrite idx_mod.
by rewrite ei ej idx_div // idx_mod // !valK.
Qed.

(** ** overlaps *)
Lemma ovlp_ok nw n no phiw psi trace junk : interleaving nw (ovlp_prog conj n no phiw psi) trace ->
  forall w, (w < nw)%N -> matrix_at no no (shared (run trace (State (fun=> tt) junk))) w =
    LinModel.ovlp_mat conj (matrix_at n no phiw w) (mxm n no psi).
Proof.
move=> hi w hw; have hl v a : (v < nw)%N -> List.In a (ovlp_prog conj n no phiw psi v) -> local (slice (no * no)) v a.
  by move=> _; apply: stores_local.
have [h _] := omp_slices (State (fun=> tt) junk) hi hl.
apply/matrixP => i j; rewrite at_flat h ?idx_lt // stores_at ?idx_lt // gemm_nth // mxE.
by apply: eq_bigr => l _; rewrite !mxE /entry /at_ptr flat.
Qed.

Definition gf_reg (nw gb a b : nat) (w : nat) : pred nat := fun y =>
  (w < nw)%N && (if (y < gb)%N then slice a w y else slice b w (y - gb)%N).
Lemma gf_disj nw gb a b w v y : w != v -> gf_reg nw gb a b w y -> ~~ gf_reg nw gb a b v y.
Proof.
rewrite /gf_reg => ne /andP[_]; rewrite negb_and; case: ltnP => _ h; apply/orP; right; exact: (slice_disj ne h).
Qed.
Lemma gf_reg_l nw gb a b w x : (nw * a <= gb)%N -> (w < nw)%N -> (x < a)%N -> gf_reg nw gb a b w (w * a + x)%N.
Proof.
move=> h1 hw hx; rewrite /gf_reg hw slice_in //.
have -> //: (w * a + x < gb)%N; apply: leq_trans h1; exact: idx_lt.
Qed.
Lemma gf_reg_r nw gb a b w x : (w < nw)%N -> (x < b)%N -> gf_reg nw gb a b w (gb + (w * b + x))%N.
Proof. by move=> hw hx; rewrite /gf_reg hw ltnNge leq_addr /= addKn slice_in. Qed.

Lemma gf_ok nw inv gb p i phiw psi trace st : (nw * (i * i) <= gb)%N ->
  interleaving nw (gf_prog conj inv gb p i phiw psi) trace ->
  forall w, (w < nw)%N ->
  let S := LinModel.ovlp_mat conj (matrix_at p i phiw w) (mxm p i psi) in
  matrix_at i i (shared (run trace st)) w = S /\
  exists v, [/\ size v = (i * i)%N, mxm i i (of_vec v) = S &
    matrix_at p i (at_ptr (shared (run trace st)) gb) w = matrix_at p i phiw w *m (mxm i i (of_vec (inv v)))^T].
Proof.
move=> hgb hi w hw S.
have hl v a : (v < nw)%N -> List.In a (gf_prog conj inv gb p i phiw psi v) -> local (gf_reg nw gb (i * i) (p * i)) v a.
  move=> hv ha; case: (proj1 (List.in_app_iff _ _ _) ha) => {ha} ha.
    have [x hx ->] := in_map_iota ha; apply: (@store_local _ (gf_reg nw gb (i * i) (p * i))) => //; exact: gf_reg_l.
  case: ha => [<-|ha].
    split=> // q s s' h; split=> //=; congr inv; apply: eq_mkseq_lt => x hx; apply: h; exact: gf_reg_l.
  have [x hx ->] := in_map_iota ha; apply: (@store_local _ (gf_reg nw gb (i * i) (p * i))) => //; exact: gf_reg_r.
have [h _] := omp (@gf_disj nw gb (i * i) (p * i)) st hi hl.
have {}h y : gf_reg nw gb (i * i) (p * i) w y -> shared (run trace st) y =
    (alone (gf_prog conj inv gb p i phiw psi w) (priv st w) (shared st)).2 y by apply: h.
rewrite /gf_prog alone_cat (alone_cat [:: _]) alone1 in h.
have [q1 q2] := @stores _ (w * (i * i)) (fun x (_ : seq F) (_ : mem) => nth 0 (gemm true i i p (at_ptr phiw (w * (p * i))) i (fun x => conj (psi x)) i) x)
   (i * i) (priv st w) (shared st) (fun x q s s' e => erefl).
move: q1 q2 h; set A1 := alone _ _ _ => q1 q2 h.
move: h; set V := mkseq _ _ => h.
have eV : mxm i i (of_vec V) = S.
  apply/matrixP => a b; rewrite !mxE /of_vec nth_mkseq ?idx_lt // q2 leq_addr ltn_add2l idx_lt // addKn gemm_nth //.
  by apply: eq_bigr => l _; rewrite !mxE /entry /at_ptr flat.
have [r1 r2] := @stores _ (gb + w * (p * i)) (fun x (v : seq F) (_ : mem) => \sum_(l < i) at_ptr phiw (w * (p * i)) (x %/ i * i + l)%N * nth 0 v (x %% i * i + l)%N)
   (p * i) (inv V) A1.2 (fun x q s s' e => erefl).
have em : [seq store (gb + (w * (p * i) + x)) (fun (v : seq F) (_ : mem) => \sum_(l < i) at_ptr phiw (w * (p * i)) (x %/ i * i + l)%N * nth 0 v (x %% i * i + l)%N) | x <- iota 0 (p * i)] =
  [seq store (gb + w * (p * i) + x) (fun (v : seq F) (_ : mem) => \sum_(l < i) at_ptr phiw (w * (p * i)) (x %/ i * i + l)%N * nth 0 v (x %% i * i + l)%N) | x <- iota 0 (p * i)].
  by apply: eq_map => x; rewrite addnA.
rewrite em in h; split.
  apply/matrixP => a b; rewrite at_flat h; last by apply: gf_reg_l => //; apply: idx_lt.
  rewrite r2; case: ifP => [/andP[l1 _]|_].
    have : (w * (i * i) + (a * i + b) < gb)%N by apply: leq_trans hgb; apply: idx_lt => //; apply: idx_lt.
    by rewrite ltnNge (leq_trans _ l1) // leq_addr.
  rewrite q2 leq_addr ltn_add2l idx_lt // addKn gemm_nth // mxE.
  by apply: eq_bigr => l _; rewrite !mxE /entry /at_ptr flat.
exists V; split=> //; first by rewrite size_mkseq.
apply/matrixP => a b; rewrite at_flat /at_ptr h; last by apply: gf_reg_r => //; apply: idx_lt.
rewrite addnA r2 leq_addr ltn_add2l idx_lt // addKn mxE; apply: eq_bigr => l _.
by rewrite idx_div // idx_mod // !mxE /entry /at_ptr flat.
Qed.

(** ** energies *)
Lemma foldl_add (T : Type) (f : T -> F) l a : foldl (fun acc x => acc + f x) a l = a + \sum_(x <- l) f x.
Proof. by elim: l a => [|x l IH] a /=; rewrite ?big_nil ?addr0 // IH big_cons addrA. Qed.
Lemma eq_foldl (T S : Type) (f g : S -> T -> S) l a : (forall x y, f x y = g x y) -> foldl f a l = foldl g a l.
Proof. by move=> e; elim: l a => [|x l IH] a //=; rewrite e IH. Qed.
Lemma sum_iota k (f : nat -> F) : \sum_(x <- iota 0 k) f x = \sum_(x < k) f x.
Proof. by rewrite -[RHS](big_mkord xpredT f) /index_iota subn0. Qed.
Lemma dotuE nao no (s t : mem) : dotu (nao * no) s t = LinModel.lg (mxm nao no t) (mxm nao no s).
Proof.
rewrite /dotu /LinModel.lg.
rewrite (eq_bigr (fun q : 'I_nao => \sum_(i < no) s (q * no + i)%N * t (q * no + i)%N)); last first.
  by move=> q _; apply: eq_bigr => i _; rewrite !mxE.
elim: nao => [|nao IH]; first by rewrite mul0n !big_ord0.
rewrite big_ord_recr /= -IH mulSnr big_split_ord /=; congr (_ + _).
Qed.
Lemma exx_ok nchol nao no rl G iw :
  exx_val nchol nao no rl G iw = LinModel.exx (fun l : 'I_nchol => matrix_at nao no rl l) (matrix_at nao no G iw).
Proof.
rewrite /exx_val /LinModel.exx mulrC; congr (_ * _).
rewrite (@eq_foldl _ _ _ (fun acc l => acc + LinModel.exx1 (matrix_at nao no rl l) (matrix_at nao no G iw))).
  by rewrite foldl_add add0r sum_iota.
move=> acc l; set LG := gemm _ _ _ _ _ _ _ _.
have eLG (x y : 'I_no) : nth 0 LG (x * no + y) = ((matrix_at nao no rl l)^T *m matrix_at nao no G iw) x y.
  rewrite -!mxm_at -gemm_tn mxE //.
rewrite (@eq_foldl _ _ _ (fun acc x => acc + \sum_(y < no) nth 0 LG (x * no + y) * nth 0 LG (y * no + x))); last first.
  by move=> a x; rewrite foldl_add sum_iota.
rewrite foldl_add sum_iota; congr (_ + _); apply: eq_bigr => x _; apply: eq_bigr => y _.
by rewrite !eLG [(_^T) x y]mxE.
Qed.
Lemma ecoul_ok nchol nao no rl G iw :
  ecoul_val nchol nao no rl G iw = LinModel.ecoul1 (fun l : 'I_nchol => matrix_at nao no rl l) (matrix_at nao no G iw).
Proof.
rewrite /ecoul_val /LinModel.ecoul1; congr (_ * _).
rewrite (@eq_foldl _ _ _ (fun acc l => acc + LinModel.lg (matrix_at nao no rl l) (matrix_at nao no G iw) * LinModel.lg (matrix_at nao no rl l) (matrix_at nao no G iw))).
  by rewrite foldl_add add0r sum_iota.
by move=> acc l; rewrite dotuE !mxm_at.
Qed.
Lemma ecoul_uhf_ok nchol nao no rla Ga rlb Gb iw :
  ecoul_uhf_val nchol nao no no rla Ga rlb Gb iw =
  LinModel.ecoul2 (fun l : 'I_nchol => matrix_at nao no rla l) (matrix_at nao no Ga iw)
                  (fun l : 'I_nchol => matrix_at nao no rlb l) (matrix_at nao no Gb iw).
Proof.
rewrite /ecoul_uhf_val /LinModel.ecoul2; congr (_ * _).
pose f l := LinModel.lg (matrix_at nao no rla l) (matrix_at nao no Ga iw) + LinModel.lg (matrix_at nao no rlb l) (matrix_at nao no Gb iw).
rewrite (@eq_foldl _ _ _ (fun acc l => acc + f l * f l)).
  by rewrite foldl_add add0r sum_iota.
by move=> acc l; rewrite /f !dotuE !mxm_at.
Qed.
Lemma walker_ok nw val trace (junk : mem) : interleaving nw (walker_prog val) trace ->
  forall w, (w < nw)%N -> shared (run trace (State (fun=> tt) junk)) w = val w.
Proof.
move=> hi w hw.
have hl v a : (v < nw)%N -> List.In a (walker_prog val v) -> local (slice 1) v a.
  move=> _ [<-|//]; apply: (@store_local _ (slice 1)) => //.
  by rewrite /slice muln1 leqnn addn1 ltnSn.
have [h _] := omp_slices (State (fun=> tt) junk) hi hl.
by have := h w 0%N hw isT; rewrite muln1 addn0 => ->; rewrite /alone /= eqxx.
Qed.

(** ** contraction *)
Lemma tensordot_ok nw n p q A B trace junk : interleaving nw (tensordot_prog n p q A B) trace ->
  forall w, (w < nw)%N -> matrix_at p q (shared (run trace (State (fun=> tt) junk))) w =
    \sum_(l < n) A (w * n + l)%N *: matrix_at p q B l.
Proof.
move=> hi w hw.
have hl v a : (v < nw)%N -> List.In a (tensordot_prog n p q A B v) -> local (slice (p * q)) v a.
  move=> _ ha; case: (proj1 (List.in_app_iff _ _ _) ha) => {ha} ha; first by apply: stores_local ha.
  have [k hk] := in_flat ha; apply: stores_local hk => x _ s s' -> //.
have [h _] := omp_slices (State (fun=> tt) junk) hi hl.
apply/matrixP => i j; rewrite at_flat h ?idx_lt // /tensordot_prog alone_cat.
set st1 := alone (map _ _) _ _; have e1 x : (x < p * q)%N -> st1.2 (w * (p * q) + x)%N = 0 by move=> hx; rewrite (@stores_at unit (p * q) w (fun _ _ _ => 0)).
have gen k : forall x, (x < p * q)%N -> (alone (flatten [seq [seq store (w * (p * q) + x)
      (fun (_ : unit) (s : mem) => s (w * (p * q) + x)%N + A (w * n + ni)%N * B (ni * (p * q) + x)%N) | x <- iota 0 (p * q)] | ni <- iota 0 k]) st1.1 st1.2).2 (w * (p * q) + x)%N =
      \sum_(l < k) A (w * n + l)%N * B (l * (p * q) + x)%N.
  elim: k => [|k IH] x hx; first by rewrite big_ord0; apply: e1.
  rewrite iota_last map_cat flatten_cat alone_cat [flatten [seq _ | _ <- [:: _]]]cats0 big_ord_recr -IH //=.
  by rewrite stores_at // => y u s s' ->.
rewrite gen ?idx_lt // summxE; apply: eq_bigr => l _; by rewrite !mxE /entry flat.
Qed.

(** ** calls *)
Lemma mxm_slab n s : mxm n n s = matrix_at n n s 0.
Proof. by apply/matrixP => i j; rewrite !mxE /entry. Qed.
Lemma step_ok (phi : ndarray F) e op order tr1 tr2 tr3 junk1 junk3 :
  complex128 phi ->
  let s1 := shared (run tr1 (State (fun=> tt) junk1)) in
  let s2 := shared (run tr2 (State (fun=> ([::], [::])) s1)) in
  interleaving (d0 phi) (onebody_prog (d1 phi) (d2 phi) e (data phi)) tr1 ->
  interleaving (d0 phi) (hs_prog (d1 phi) (d2 phi) op order) tr2 ->
  interleaving (d0 phi) (onebody_prog (d1 phi) (d2 phi) e s2) tr3 ->
  exists out ref,
    [/\ cpp_step tr1 tr2 tr3 junk1 junk3 phi = Ok out, py_step e op order phi = Ok ref,
        [/\ d0 out = d0 phi, d1 out = d1 phi & d2 out = d2 phi] /\ [/\ d0 ref = d0 phi, d1 ref = d1 phi & d2 ref = d2 phi],
        complex128 out /\ c_order out &
        forall w, (w < d0 phi)%N ->
          matrix_at (d1 phi) (d2 phi) (data out) w = matrix_at (d1 phi) (d2 phi) (data ref) w /\
          matrix_at (d1 phi) (d2 phi) (data out) w =
            matrix_at (d1 phi) (d1 phi) e 0 *m exp_terms (matrix_at (d1 phi) (d1 phi) op w) order
              (matrix_at (d1 phi) (d1 phi) e 0 *m matrix_at (d1 phi) (d2 phi) (data phi) w)].
Proof.
move=> hc s1 s2 h1 h2 h3.
pose out := Arr (d0 phi) (d1 phi) (d2 phi) (shared (run tr3 (State (fun=> tt) junk3))) true true.
have eo w : (w < d0 phi)%N -> matrix_at (d1 phi) (d2 phi) (data out) w =
            matrix_at (d1 phi) (d1 phi) e 0 *m exp_terms (matrix_at (d1 phi) (d1 phi) op w) order
              (matrix_at (d1 phi) (d1 phi) e 0 *m matrix_at (d1 phi) (d2 phi) (data phi) w).
  by move=> hw; rewrite (onebody_ok junk3 h3) // mxm_slab (hs_ok _ h2) // exp_termsE (onebody_ok junk1 h1) // mxm_slab.
exists out; eexists; split; first by rewrite /cpp_step /cpp_onebody /cpp_hs ?eqxx /= ?eqxx /= ?eqxx.
- by rewrite /py_step /py_onebody hc /= /py_hs /= hc /= hc.
- by split.
- by split.
move=> w hw; split; last exact: eo.
rewrite eo //=; do ! rewrite ?unslab_at ?slab_at.
by rewrite exp_termsE.
Qed.
Lemma hs_kept (phi : ndarray F) trace o : complex128 phi && c_order phi = false ->
  cpp_hs trace phi (d0 phi) (d1 phi) o = if (o != d1 phi)%N then Err Base.RuntimeError else Ok phi.
Proof. by rewrite /cpp_hs => ->; rewrite !eqxx. Qed.

(** every loop has an execution, the one in order *)
Lemma seq_trace (P : Type) nw (prog : nat -> seq (action F P)) : exists trace, interleaving nw prog trace.
Proof.
pose tr k := flatten [seq [seq (w, a) | a <- prog w] | w <- iota 0 k].
have tS k : tr k.+1 = tr k ++ [seq (k, a) | a <- prog k] by rewrite /tr iota_last map_cat flatten_cat /= cats0.
have f1 w l : [seq x.2 | x <- [seq (w, a) | a <- l] & x.1 == w] = l :> seq (action F P).
  by elim: l => [//|a l IH] /=; rewrite eqxx /= IH.
have f0 v w (l : seq (action F P)) : v != w -> [seq x.2 | x <- [seq (v, a) | a <- l] & x.1 == w] = [::].
  by move=> ne; elim: l => [//|a l IH] /=; rewrite (negbTE ne).
have a0 v k (l : seq (action F P)) : (v < k)%N -> all (fun x : nat * action F P => (x.1 < k)%N) [seq (v, a) | a <- l].
  by move=> hv; elim: l => [//|a l IH] /=; rewrite hv.
exists (tr nw); elim: nw => [|nw [IH1 IH2]]; split=> //.
  rewrite tS all_cat a0 // andbT; apply: sub_all IH1 => x h; exact: ltnW.
have out w k : (k <= w)%N -> [seq x.2 | x <- tr k & x.1 == w] = [::].
  elim: k => [//|k IH] h; rewrite tS filter_cat map_cat IH ?f0 //; last exact: ltnW.
  by rewrite ltn_eqF.
move=> w; rewrite ltnS leq_eqVlt => /orP[/eqP->|hw].
  by rewrite tS filter_cat map_cat out // f1.
by rewrite tS filter_cat map_cat IH2 // f0 ?cats0 // gtn_eqF.
Qed.

(** ** Green's function *)
Lemma gf_python p i (W T : 'M[F]_(p, i)) (v : 'M[F]_i) : v = invmx (LinModel.ovlp_mat conj W T) ->
  W *m v^T = LinModel.ghalf conj W T.
Proof.
move=> ->; apply/matrixP => a b; rewrite !mxE; apply: eq_bigr => j _; by rewrite !mxE mulrC.
Qed.
Lemma ovlp_mx p i (W T : 'M[F]_(p, i)) : LinModel.ovlp_mat conj W T = W^T *m map_mx conj T.
Proof. by apply/matrixP => a b; rewrite !mxE; apply: eq_bigr => k _; rewrite !mxE. Qed.
Lemma gf_dual p i (W T : 'M[F]_(p, i)) : LinModel.ovlp_mat conj W T \in unitmx ->
  (map_mx conj T)^T *m LinModel.ghalf conj W T = 1%:M /\ LinModel.ghalf conj W T *m (LinModel.ovlp_mat conj W T)^T = W.
Proof.
move=> u; rewrite -(gf_python erefl); split.
  rewrite mulmxA -[(map_mx conj T)^T *m W]trmxK trmx_mul trmxK -ovlp_mx -trmx_mul.
  by rewrite mulVmx // trmx1.
by rewrite -mulmxA -trmx_mul mulmxV // trmx1 mulmx1.
Qed.
End Kernels.

(** * Entry by entry *)
Section Entries.
Variables (F : fieldType) (conj : {rmorphism F -> F}).
Notation mem := (mem F).

Lemma onebody_entries nw n m (op phi junk : mem) trace :
  interleaving nw (onebody_prog n m op phi) trace ->
  let out := shared (run trace (State (fun=> tt) junk)) in
  (forall w (i : 'I_n) (j : 'I_m), (w < nw)%N ->
    entry n m out w i j = \sum_(l < n) entry2 n op i l * entry n m phi w l j) /\
  (forall y, (nw * (n * m) <= y)%N -> out y = junk y).
Proof.
move=> h out; split=> [w i j hw|y hy]; last exact: (onebody_outside _ h).
have := f_equal (fun M : 'M_(n, m) => M i j) (onebody_ok junk h hw); rewrite mxE => ->.
by rewrite mxE; apply: eq_bigr => l _; rewrite !mxE.
Qed.
Lemma hs_spec nw n m (op : mem) order trace st : interleaving nw (hs_prog n m op order) trace ->
  (forall w, (w < nw)%N -> matrix_at n m (shared (run trace st)) w =
    exp_terms (matrix_at n n op w) order (matrix_at n m (shared st) w)) /\
  (forall y, (nw * (n * m) <= y)%N -> shared (run trace st) y = shared st y).
Proof.
move=> h; split=> [w hw|y hy]; last exact: (hs_outside _ h).
by rewrite (hs_ok _ h) // exp_termsE.
Qed.
Lemma hsr_spec nw n m (op : mem) order trace st : interleaving nw (hsr_prog n m op order) trace ->
  forall w, (w < nw)%N ->
  matrix_at n m (shared (run trace st)) w = harmonic_terms (matrix_at n n op w) order (matrix_at n m (shared st) w) /\
  ((order <= 2)%N -> matrix_at n m (shared (run trace st)) w = exp_terms (matrix_at n n op w) order (matrix_at n m (shared st) w)).
Proof.
move=> h w hw; rewrite (hsr_ok _ h) //; split=> // ho; rewrite /harmonic_terms /exp_terms.
rewrite big_ord_recl fact0 invr1 scale1r; congr (_ + _); apply: eq_bigr => k _; rewrite lift0; congr (_^-1 *: _); congr (_%:R).
by have := leq_trans (ltn_ord k) ho; case: (nat_of_ord k) => [|[|]].
Qed.
Lemma shapes_ok tr1 tr2 (junk : mem) r c (phi : ndarray F) o0 o1 o2 :
  (cpp_onebody tr1 junk r c phi = Err Base.RuntimeError <-> ~ (r = c /\ d1 phi = r)) /\
  (cpp_hs tr2 phi o0 o1 o2 = Err Base.RuntimeError <-> ~ (o0 = d0 phi /\ o1 = d1 phi /\ o2 = d1 phi)).
Proof.
rewrite /cpp_onebody /cpp_hs; split.
  by case: eqP => [->|h] /=; [case: eqP => [->|h] /=|]; split=> //; [case; split| move=> _ [] |move=> _ []].
by case: eqP => [->|h] /=; [case: eqP => [->|h] /=; [case: eqP => [->|h] /=|]|]; split=> //; [case | move=> _ [_ []] | move=> _ [_ []] |move=> _ []].
Qed.
Lemma ovlp_entries nw n no (phiw psi junk : mem) trace :
  interleaving nw (ovlp_prog conj n no phiw psi) trace ->
  cpp_ovlp trace junk n no n no = Ok (shared (run trace (State (fun=> tt) junk))) /\
  forall w (i j : 'I_no), (w < nw)%N ->
    entry no no (shared (run trace (State (fun=> tt) junk))) w i j = \sum_(l < n) entry n no phiw w l i * conj (entry2 no psi l j).
Proof.
move=> h; split; first by rewrite /cpp_ovlp !eqxx.
move=> w i j hw; have := f_equal (fun M : 'M_no => M i j) (ovlp_ok junk h hw); rewrite mxE => ->.
by rewrite mxE; apply: eq_bigr => l _; rewrite !mxE.
Qed.
Lemma ovlp_shapes trace (junk : mem) n no p0 p1 :
  cpp_ovlp trace junk n no p0 p1 = Err Base.RuntimeError <-> ~ (p0 = n /\ p1 = no).
Proof.
rewrite /cpp_ovlp.
by case: eqP => [->|h] /=; [case: eqP => [->|h] /=|]; split=> //; [case| move=> _ [] |move=> _ []].
Qed.
Lemma gf_entries nw inv gb p i (phiw psi : mem) trace st :
  (forall v, size v = (i * i)%N -> matrix_at i i (of_vec v) 0 \in unitmx ->
     matrix_at i i (of_vec (inv v)) 0 = invmx (matrix_at i i (of_vec v) 0)) ->
  (nw * (i * i) <= gb)%N -> interleaving nw (gf_prog conj inv gb p i phiw psi) trace ->
  let out := shared (run trace st) in
  forall w, (w < nw)%N ->
  (forall a b : 'I_i, entry i i out w a b = \sum_(l < p) entry p i phiw w l a * conj (entry2 i psi l b)) /\
  (matrix_at i i out w \in unitmx ->
     let G q a := entry p i (fun y => out (gb + y)%N) w q a in
     matrix_at p i (fun y => out (gb + y)%N) w = LinModel.ghalf conj (matrix_at p i phiw w) (matrix_at p i psi 0) /\
     (forall a b : 'I_i, \sum_(q < p) conj (entry2 i psi q a) * G q b = (a == b)%:R) /\
     (forall (q : 'I_p) (a : 'I_i), \sum_(b < i) G q b * entry i i out w a b = entry p i phiw w q a)).
Proof.
move=> hinv hgb h out w hw; have [hS [v [sv ev eG]]] := gf_ok st hgb h hw; rewrite -/out in hS eG.
have ep : mxm p i psi = matrix_at p i psi 0 by apply/matrixP => a b; rewrite !mxE /entry.
split.
  move=> a b; have := f_equal (fun M : 'M_i => M a b) hS; rewrite mxE => ->.
  by rewrite mxE; apply: eq_bigr => l _; rewrite !mxE.
rewrite hS => u G; have hv : mxm i i (of_vec (inv v)) = invmx (LinModel.ovlp_mat conj (matrix_at p i phiw w) (mxm p i psi)).
  by rewrite mxm_slab hinv -?mxm_slab ?ev.
have eG' : matrix_at p i (fun y => out (gb + y)%N) w = LinModel.ghalf conj (matrix_at p i phiw w) (mxm p i psi).
  by rewrite -(gf_python hv) -eG.
have [d1 d2] := gf_dual u.
split; first by rewrite eG' ep.
have GE q a : G (nat_of_ord q) (nat_of_ord a) = matrix_at p i (fun y => out (gb + y)%N) w q a by rewrite mxE.
split=> [a b|q a].
  have := f_equal (fun M : 'M_i => M a b) d1; rewrite !mxE => <-; apply: eq_bigr => q _.
  by rewrite GE eG' [in RHS]mxE !mxE.
have := f_equal (fun M : 'M_(p, i) => M q a) d2; rewrite [in RHS]mxE => <-; rewrite mxE; apply: eq_bigr => b _.
rewrite GE eG' [(_^T) b a]mxE -hS; congr (_ * _); by rewrite mxE.
Qed.
Lemma inv_exists i : exists inv : seq F -> seq F,
  forall v, size v = (i * i)%N -> matrix_at i i (of_vec v) 0 \in unitmx ->
     matrix_at i i (of_vec (inv v)) 0 = invmx (matrix_at i i (of_vec v) 0).
Proof.
exists (fun v => mkseq (unslab (fun=> invmx (matrix_at i i (of_vec v) 0))) (i * i)) => v _ _.
rewrite -[RHS](unslab_at (fun=> invmx (matrix_at i i (of_vec v) 0)) 0); apply/matrixP => a b.
by rewrite !mxE /entry /of_vec !mul0n !add0n nth_mkseq ?idx_lt.
Qed.
Lemma exx_spec nw nchol nao no (rl G junk : mem) trace :
  interleaving nw (walker_prog (exx_val nchol nao no rl G)) trace ->
  forall w, (w < nw)%N ->
  let LG l a b := \sum_(q < nao) entry nao no rl l q a * entry nao no G w q b in
  shared (run trace (State (fun=> tt) junk)) w = 2%:R^-1 * (\sum_(l < nchol) \sum_(a < no) \sum_(b < no) LG l a b * LG l b a) /\
  shared (run trace (State (fun=> tt) junk)) w =
    LinModel.exx (fun l : 'I_nchol => matrix_at nao no rl l) (matrix_at nao no G w).
Proof.
move=> h w hw LG; rewrite (walker_ok junk h) // exx_ok; split=> //.
rewrite /LinModel.exx mulrC; congr (_ * _); apply: eq_bigr => l _; apply: eq_bigr => a _; apply: eq_bigr => b _.
by rewrite !mxE; congr (_ * _); apply: eq_bigr => q _; rewrite !mxE.
Qed.
Lemma lgE nao no (r g : mem) l w : LinModel.lg (matrix_at nao no r l) (matrix_at nao no g w) =
  \sum_(q < nao) \sum_(a < no) entry nao no g w q a * entry nao no r l q a.
Proof. by apply: eq_bigr => q _; apply: eq_bigr => a _; rewrite !mxE. Qed.
Lemma ecoul_spec nw nchol nao no (rl G junk : mem) trace :
  interleaving nw (walker_prog (ecoul_val nchol nao no rl G)) trace ->
  forall w, (w < nw)%N ->
  let X l := \sum_(q < nao) \sum_(a < no) entry nao no G w q a * entry nao no rl l q a in
  shared (run trace (State (fun=> tt) junk)) w = 2%:R^-1 * (\sum_(l < nchol) X l * X l) /\
  shared (run trace (State (fun=> tt) junk)) w =
    LinModel.ecoul1 (fun l : 'I_nchol => matrix_at nao no rl l) (matrix_at nao no G w).
Proof.
move=> h w hw X; rewrite (walker_ok junk h) // ecoul_ok; split=> //.
by rewrite /LinModel.ecoul1; congr (_ * _); apply: eq_bigr => l _; rewrite lgE.
Qed.
Lemma ecoul_uhf_spec nw nchol nao no (rla Ga rlb Gb junk : mem) trace :
  interleaving nw (walker_prog (ecoul_uhf_val nchol nao no no rla Ga rlb Gb)) trace ->
  forall w, (w < nw)%N ->
  let X (r g : mem) l := \sum_(q < nao) \sum_(a < no) entry nao no g w q a * entry nao no r l q a in
  shared (run trace (State (fun=> tt) junk)) w = 2%:R^-1 * (\sum_(l < nchol) (X rla Ga l + X rlb Gb l) * (X rla Ga l + X rlb Gb l)) /\
  shared (run trace (State (fun=> tt) junk)) w =
    LinModel.ecoul2 (fun l : 'I_nchol => matrix_at nao no rla l) (matrix_at nao no Ga w)
                    (fun l : 'I_nchol => matrix_at nao no rlb l) (matrix_at nao no Gb w).
Proof.
move=> h w hw X; rewrite (walker_ok junk h) // ecoul_uhf_ok; split=> //.
by rewrite /LinModel.ecoul2; congr (_ * _); apply: eq_bigr => l _; rewrite !lgE.
Qed.
Lemma tensordot_entries nw n p q (A B junk : mem) trace :
  interleaving nw (tensordot_prog n p q A B) trace ->
  forall w (i : 'I_p) (j : 'I_q), (w < nw)%N ->
  entry p q (shared (run trace (State (fun=> tt) junk))) w i j = \sum_(l < n) entry2 n A w l * entry p q B l i j.
Proof.
move=> h w i j hw; have := f_equal (fun M : 'M_(p, q) => M i j) (tensordot_ok junk h hw); rewrite mxE => ->.
by rewrite summxE; apply: eq_bigr => l _; rewrite !mxE.
Qed.
End Entries.

(** * Witnesses *)
Section Witnesses.
Variable F : realFieldType.
Import Num.Theory.
Definition unit_array (c : bool) : ndarray F := Arr 1 1 1 (fun=> 1) c false.
Lemma lost_ok : exists (phi : ndarray F) op order ref, complex128 phi /\
  (forall trace, cpp_hs trace phi (d0 phi) (d1 phi) (d1 phi) = Ok phi) /\
  py_hs op order phi = Ok ref /\ entry (d1 ref) (d2 ref) (data ref) 0 0 0 <> entry (d1 phi) (d2 phi) (data phi) 0 0 0.
Proof.
exists (unit_array true), (fun=> 1), 1%N; eexists; do 3 (split; first by []); move=> /= e.
have: matrix_at 1 1 (unslab (fun w => LinModel.propagate_exp_op (slab 1 1 (fun=> 1 : F) w) 1 (slab 1 1 (fun=> 1) w))) 0 ord0 ord0 = 1.
  by rewrite mxE; exact: e.
rewrite unslab_at /= !mxE big_ord1 !mxE invr1 !mul1r => /eqP; rewrite -subr_eq0 addrK => h.
by move: (oner_neq0 F); rewrite (eqP h) eqxx.
Qed.
Lemma real_bad : exists (op s : mem F) trace, interleaving 1 (hsr_prog 1 1 op 3) trace /\
  matrix_at 1 1 (shared (run trace (State (fun=> ([::], [::])) s))) 0 <> exp_terms (matrix_at 1 1 op 0) 3 (matrix_at 1 1 s 0).
Proof.
have [trace h] := seq_trace 1 (hsr_prog 1 1 (fun=> 1 : F) 3).
exists (fun=> 1), (fun=> 1), trace; split=> //; rewrite (hsr_ok _ h) //.
have e1 : matrix_at 1 1 (fun=> 1 : F) 0 = 1%:M.
  by apply/matrixP => i j; rewrite !mxE !ord1 eqxx.
have it k : iter k (mulmx 1%:M) 1%:M = 1%:M :> 'M[F]_1 by elim: k => // k IH; rewrite iterS IH mulmx1.
rewrite /= e1 /harmonic_terms /exp_terms !big_ord_recl !big_ord0 !it !fact0 => /matrixP /(_ ord0 ord0).
rewrite !mxE !eqxx !lift0 /= !mulr1 !addr0 invr1 !mulr1n.
move/addrI/addrI/addrI => /eqP.
rewrite (inj_eq invr_inj) eqr_nat //.
Qed.
Lemma uhf_bad : exists (rla Ga : mem F) (Gb : mem F), forall x, let rlb : mem F := fun y => if y == 0%N then 0 else if y == 1%N then 1 else x in
  ecoul_uhf_val 2 1 2 1 rla Ga rlb Gb 0 <>
  LinModel.ecoul2 (fun l : 'I_2 => matrix_at 1 2 rla l) (matrix_at 1 2 Ga 0) (fun l : 'I_2 => matrix_at 1 1 rlb l) (matrix_at 1 1 Gb 0).
Proof.
exists (fun=> 0), (fun=> 0), (fun y => if y == 0%N then 0 else 1) => x rlb.
rewrite /ecoul_uhf_val /LinModel.ecoul2 /LinModel.lg /dotu /=.
rewrite !big_ord_recl !big_ord0 !mxE /entry /at_ptr /rlb /= ?(mul0r, mulr0, mul1r, mulr1, addr0, add0r) => /eqP.
have h : 1 + x * x != 0 by rewrite lt0r_neq0 // ltr_paddr ?ltr01 // -expr2 sqr_ge0.
by rewrite mulf_eq0 invr_eq0 pnatr_eq0 (negbTE h).
Qed.
Lemma uhf_bad2 : exists (rla Ga rlb Gb : mem F),
  ecoul_uhf_val 1 1 1 2 rla Ga rlb Gb 0 = 0 /\
  LinModel.ecoul2 (fun l : 'I_1 => matrix_at 1 1 rla l) (matrix_at 1 1 Ga 0) (fun l : 'I_1 => matrix_at 1 2 rlb l) (matrix_at 1 2 Gb 0) = 2%:R^-1.
Proof.
exists (fun=> 0), (fun=> 0), (fun y => if y == 1%N then 1 else 0), (fun y => if y == 1%N then 1 else 0).
rewrite /ecoul_uhf_val /LinModel.ecoul2 /LinModel.lg /dotu /=.
by rewrite !big_ord_recl !big_ord0 !mxE /entry /at_ptr /= ?(mul0r, mulr0, mul1r, mulr1, addr0, add0r).
Qed.

Lemma ex_onebody : let prog := onebody_prog 1 1 (fun=> 2%:R) (fun y => if y == 0%N then 1 else 3%:R) in
  let trace := [seq (1%N, a) | a <- prog 1%N] ++ [seq (0%N, a) | a <- prog 0%N] in
  let out : mem F := shared (run trace (State (fun=> tt) (fun=> 7%:R))) in
  interleaving 2 prog trace /\ out 0%N = 2%:R /\ out 1%N = 6%:R /\ out 2%N = 7%:R.
Proof.
move=> prog trace out; split; first by split=> // -[|[|]].
rewrite /out /trace /run /event /= !big_ord1 /at_ptr /= mulr1 -natrM; do ! split=> //.
Qed.
Lemma ex_greens : exists trace, let prog := gf_prog (fun x => x) (fun v : seq F => [seq x^-1 | x <- v]) 1 1 1 (fun=> 2%:R) (fun=> 3%:R) in
  interleaving 1 prog trace /\
  let out : mem F := shared (run trace (State (fun=> [::]) (fun=> 0))) in out 0%N = 6%:R /\ out 1%N = 3%:R^-1.
Proof.
exists [seq (0%N, a) | a <- gf_prog (fun x => x) (fun v : seq F => [seq x^-1 | x <- v]) 1 1 1 (fun=> 2%:R) (fun=> 3%:R) 0] => prog.
split; first by split=> // -[|].
rewrite /run /event /= !big_ord1 /at_ptr /= -natrM; split=> //.
rewrite -[(2 * 3)%N]/(2 * 3)%N natrM invfM mulrA divff ?mul1r // pnatr_eq0 //.
Qed.
Lemma ex_energies : exx_val 1 1 1 (fun=> 2%:R : F) (fun=> 3%:R) 0 = 18%:R /\ ecoul_val 1 1 1 (fun=> 2%:R : F) (fun=> 3%:R) 0 = 18%:R.
Proof.
have e : 2%:R^-1 * (6%:R * 6%:R) = 18%:R :> F.
  by rewrite -natrM -[(6 * 6)%N]/(2 * 18)%N natrM mulrA mulVf ?mul1r // pnatr_eq0.
split; last by rewrite /ecoul_val /= /dotu !big_ord1 /at_ptr add0r -natrM e.
by rewrite exx_ok /LinModel.exx big_ord1 mulrC /LinModel.exx1 !big_ord1 !mxE !big_ord1 !mxE /entry -natrM e.
Qed.
Lemma ex_tensordot : exists trace, interleaving 1 (tensordot_prog 2 1 1 (fun=> 2%:R) (fun y => y%:R)) trace /\
  (shared (run trace (State (fun=> tt) (fun=> 7%:R))) : mem F) 0%N = 2%:R.
Proof.
have [trace h] := @seq_trace F unit 1 (tensordot_prog 2 1 1 (fun=> 2%:R) (fun y => y%:R)).
exists trace; split=> //; have := tensordot_entries (fun=> 7%:R) h ord0 ord0 (isT : (0 < 1)%N).
by rewrite /entry /= => ->; rewrite !big_ord_recl big_ord0 /entry2 /entry /= mulr0 add0r addr0 mulr1.
Qed.
End Witnesses.
