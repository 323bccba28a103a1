(** Derivatives of sums of terms along [shift] (QccSpec.v), computed term by
    term; the lemmas say that they are the derivatives of QccSpec.v. *)
From Coq Require Import String Ascii.
From mathcomp Require Import all_ssreflect all_algebra.
From Verif Require Import QccModel QccSym QccNorm QccSpec.
Set Implicit Arguments.
Unset Strict Implicit.
Unset Printing Implicit Defensive.
Import GRing.Theory.
Local Open Scope ring_scope.
Local Open Scope string_scope.
Local Open Scope ring_scope.

(** The derivative of one factor: a sum of factors with the letter [y] in
    front.  "delta" stands for the Kronecker symbol. *)
Definition df (c : cfg) (y : var) (f : fac) : seq fac :=
  if f.1 == "T1old" then (if (0 < nf2 c)%N then [:: ("U1nold[0]", y :: f.2)] else [::])
  else if f.1 == "T2old" then
    (if (0 < nf2 c)%N && u2 c then [:: ("U2nold[0]", y :: f.2)] else [::])
  else if f.1 == "Snold[0]" then
    ("delta", y :: f.2) :: (if (1 < nf1 c)%N then [:: ("Snold[1]", y :: f.2)] else [::])
  else if f.1 == "U1nold[0]" then
    (if (1 < nf2 c)%N then [:: ("U1nold[1]", y :: f.2)] else [::])
  else if f.1 == "U2nold[0]" then
    (if (1 < nf2 c)%N && u2 c then [:: ("U2nold[1]", y :: f.2)] else [::])
  else [::].
Fixpoint dfs (c : cfg) (y : var) (fs : seq fac) : seq (seq fac) :=
  match fs with
  | [::] => [::]
  | f :: fs' => ([seq f' :: fs' | f' <- df c y f]
                 ++ [seq f :: g | g <- dfs c y fs'])%SEQ
  end.
Definition dterm (c : cfg) (y : var) (t : term) : seq term :=
  [seq (t.1, (t.2.1, g)) | g <- dfs c y t.2.2].
Definition dpoly (c : cfg) (y : var) (P : poly) : poly :=
  (y :: P.1, flatten [seq dterm c y t | t <- P.2]).
Definition dok (y : var) (P : poly) : bool :=
  (y \notin P.1)
  && all (fun t : term => (y \notin t.2.1) && (y \notin fvars t.2.2)) P.2.

(** Putting the letter [y] for [x] where a factor delta(y, x) stands. *)
Definition isdelta (ys bs : seq var) (f : fac) : bool :=
  (f.1 == "delta") &&
  match f.2 with
  | [:: y; x] => [&& y \in ys, x \in bs, y \notin bs & y.1 == x.1]
  | _ => false
  end.
Definition setx (y x : var) : var -> var := fun v => if v == x then y else v.
Definition ed (ys : seq var) (t : term) : term :=
  let: (bs, fs) := t.2 in
  match [seq f <- fs | isdelta ys bs f] with
  | [::] => t
  | f :: _ =>
      match f.2 with
      | [:: y; x] =>
          let u := (t.1, (rem x bs, rem f fs)) in
          if uniq bs && renok (setx y x) u then rent (setx y x) u else t
      | _ => t
      end
  end.
Definition edp (ys : seq var) (P : poly) : poly :=
  (P.1, [seq ed ys (ed ys t) | t <- P.2]).

(** First [k] axes at 0. *)
Definition zax (k : nat) (P : poly) : option poly :=
  let zs := drop k P.1 in
  let ys := (nseq k zv ++ zs)%SEQ in
  check ((k <= size P.1)%N && all (instok P.1 ys 20) P.2)
        (zs, [seq instt P.1 ys 20 t | t <- P.2]).

(* ------------------------------------------------------------------ *)

Section Der.
Variable F : fieldType.
Variable D : nat -> nat.
Implicit Types (E : env F) (r : asg).

Definition coefs (f : F -> F) (c0 c1 : F) : Prop :=
  exists q : {poly F}, [/\ forall e, f e = q.[e], q`_0 = c0 & q`_1 = c1].

Lemma coefs_ext f g c0 c1 : f =1 g -> coefs f c0 c1 -> coefs g c0 c1.
Proof. by move=> h [q [hq h0 h1]]; exists q; split=> // e; rewrite -h. Qed.
Lemma coefs_deriv f c0 c1 : coefs f c0 c1 -> deriv0 f c1.
Proof. by case=> q [h _ h1]; exists q. Qed.
Lemma coefs_const c : coefs (fun _ => c) c 0.
Proof. by exists c%:P; split; rewrite ?coefC // => e; rewrite hornerC. Qed.
Lemma coefs_lin a b : coefs (fun e => a + e * b) a b.
Proof.
exists (a%:P + b *: 'X); split.
- by move=> e; rewrite !hornerE mulrC.
- by rewrite coefD coefC coefZ coefX /= mulr0 addr0.
by rewrite coefD coefC coefZ coefX /= mulr1 add0r.
Qed.
Lemma coefs_add f g a b a' b' : coefs f a b -> coefs g a' b' ->
  coefs (fun e => f e + g e) (a + a') (b + b').
Proof.
move=> [q [hq h0 h1]] [p [hp g0 g1]]; exists (q + p); split.
- by move=> e; rewrite hornerD hq hp.
- by rewrite coefD h0 g0.
by rewrite coefD h1 g1.
Qed.
Lemma coefs_mul f g a b a' b' : coefs f a b -> coefs g a' b' ->
  coefs (fun e => f e * g e) (a * a') (a * b' + b * a').
Proof.
move=> [q [hq h0 h1]] [p [hp g0 g1]]; exists (q * p); split.
- by move=> e; rewrite hornerM hq hp.
- by rewrite coefM big_ord_recl big_ord0 addr0 /= h0 g0.
by rewrite coefM !big_ord_recl big_ord0 addr0 /= -h0 -h1 -g0 -g1.
Qed.
Lemma coefs_scale f a b c : coefs f a b -> coefs (fun e => c * f e) (c * a) (c * b).
Proof.
move=> h; have := coefs_mul (coefs_const c) h.
by rewrite mul0r addr0.
Qed.
Lemma coefs_sum (I : Type) (l : seq I) (f : I -> F -> F) a b :
  (forall i, coefs (f i) (a i) (b i)) ->
  coefs (fun e => \sum_(i <- l) f i e) (\sum_(i <- l) a i) (\sum_(i <- l) b i).
Proof.
move=> h; elim: l => [|i l IH].
  rewrite !big_nil; apply: (coefs_ext _ (coefs_const 0)) => e; by rewrite big_nil.
rewrite !big_cons; apply: (coefs_ext _ (coefs_add (h i) IH)) => e; by rewrite big_cons.
Qed.
Lemma coefs_bsum bs r (G : F -> asg -> F) a b :
  (forall q, coefs (fun e => G e q) (a q) (b q)) ->
  coefs (fun e => bsum D bs r (G e)) (bsum D bs r a) (bsum D bs r b).
Proof.
move=> h; elim: bs r => [|v bs IH] r /=; first exact: h.
exact: coefs_sum.
Qed.

Lemma deriv0_ext (f g : F -> F) d : f =1 g -> deriv0 f d -> deriv0 g d.
Proof. by move=> h [q [hq h1]]; exists q; split=> // e; rewrite -h. Qed.

(** The Kronecker symbol as an array. *)
Definition kron (ix : seq nat) : F :=
  match ix with j :: jx => (jx == [:: j])%:R | [::] => 0 end.
Definition wd E : env F := fun n ix => if n == "delta" then kron ix else E n ix.

Lemma df_ok c y E r f :
  coefs (fun e => evf (shift c (r y) e (wd E)) r f) (evf (wd E) r f)
        (\sum_(g <- df c y f) evf (wd E) r g).
Proof.
rewrite /evf /shift.
have -> : \sum_(g <- df c y f) wd E g.1 [seq r v | v <- g.2]
          = slope c (r y) (wd E) f.1 [seq r v | v <- f.2].
  rewrite /slope /df; do 5! [case: ifP => _;
    first by do ?case: ifP => _; rewrite ?big_cons ?big_nil /= ?addr0].
  by rewrite big_nil.
exact: coefs_lin.
Qed.

Lemma dfs_ok c y E r fs :
  coefs (fun e => evm (shift c (r y) e (wd E)) r fs) (evm (wd E) r fs)
        (\sum_(g <- dfs c y fs) evm (wd E) r g).
Proof.
elim: fs => [|f fs IH].
  rewrite /= big_nil /evm big_nil; apply: (coefs_ext _ (coefs_const 1)) => e.
  by rewrite big_nil.
apply: (coefs_ext (f := fun e => evf (shift c (r y) e (wd E)) r f * evm (shift c (r y) e (wd E)) r fs)).
  by move=> e; rewrite /evm big_cons.
have -> : evm (wd E) r (f :: fs) = evf (wd E) r f * evm (wd E) r fs.
  by rewrite /evm big_cons.
rewrite /= big_cat !big_map /=.
have -> : \sum_(i <- df c y f) evm (wd E) r (i :: fs)
          = (\sum_(i <- df c y f) evf (wd E) r i) * evm (wd E) r fs.
  by rewrite big_distrl; apply: eq_bigr => g _; rewrite /evm big_cons.
have -> : \sum_(g <- dfs c y fs) evm (wd E) r (f :: g)
          = evf (wd E) r f * \sum_(g <- dfs c y fs) evm (wd E) r g.
  by rewrite big_distrr; apply: eq_bigr => g _; rewrite /evm big_cons.
rewrite addrC; apply: coefs_mul => //; exact: df_ok.
Qed.

Lemma bsum_at bs r y (G G' : asg -> F) : y \notin bs ->
  (forall q, q y = r y -> G q = G' q) -> bsum D bs r G = bsum D bs r G'.
Proof.
elim: bs r => [|b bs IH] r /=; first by move=> _; apply.
rewrite inE negb_or => /andP [hb hn] h; apply: eq_bigr => x _; apply: IH => // q.
by rewrite /updv (negbTE hb); apply: h.
Qed.

Lemma dterm_ok c y E r t : y \notin t.2.1 ->
  coefs (fun e => evt D (shift c (r y) e (wd E)) r t) (evt D (wd E) r t)
        (evp D (wd E) r (dterm c y t)).
Proof.
move=> hy.
have -> : evp D (wd E) r (dterm c y t)
  = cf F t.1.1 t.1.2 * bsum D t.2.1 r (fun q => \sum_(g <- dfs c y t.2.2) evm (wd E) q g).
  rewrite /evp /dterm big_map bsum_sum big_distrr; by apply: eq_bigr.
apply: coefs_scale.
apply: (coefs_ext (f := fun e => bsum D t.2.1 r (fun q => evm (shift c (q y) e (wd E)) q t.2.2))).
  by move=> e; apply: (bsum_at hy) => q ->.
by apply: coefs_bsum => q; apply: dfs_ok.
Qed.

Lemma dpoly_ok c y j ix E P : dok y P ->
  deriv0 (fun e => evpoly D (shift c j e (wd E)) P ix)
         (evpoly D (wd E) (dpoly c y P) (j :: ix)).
Proof.
case/andP=> hx /allP ht.
set r := bindv (y :: P.1) (j :: ix).
have ry : r y = j by rewrite /r /bindv mem_head /= eqxx.
have hr : forall E' t, t \in P.2 -> evt D E' (bindv P.1 ix) t = evt D E' r t.
  move=> E' t /ht /andP [_ hf]; apply: evt_ext => v hv _.
  have hvy : y != v by apply: contra hf => /eqP ->.
  by rewrite /r /bindv inE eq_sym (negbTE hvy) /= (negbTE hvy).
apply: (coefs_deriv (c0 := \sum_(t <- P.2) evt D (wd E) r t)).
rewrite /evpoly /dpoly /= -/r /evp big_flatten /= big_map.
have : forall l, {subset l <= P.2} ->
  coefs (fun e => \sum_(t <- l) evt D (shift c j e (wd E)) (bindv P.1 ix) t)
    (\sum_(t <- l) evt D (wd E) r t)
    (\sum_(t <- l) \sum_(t0 <- dterm c y t) evt D (wd E) r t0).
  elim=> [|t l IH] hl.
    rewrite !big_nil; apply: (coefs_ext _ (coefs_const 0)) => e; by rewrite big_nil.
  have h1 : t \in P.2 by apply: hl; rewrite mem_head.
  rewrite !big_cons.
  apply: (coefs_ext (f := fun e => evt D (shift c j e (wd E)) r t
      + \sum_(t <- l) evt D (shift c j e (wd E)) (bindv P.1 ix) t)).
    by move=> e; rewrite big_cons hr.
  apply: coefs_add; last by apply: IH => u hu; apply: hl; rewrite inE hu orbT.
  have /andP [h2 _] := ht t h1.
  by have := dterm_ok c E r h2; rewrite ry.
by apply.
Qed.

(** Arrays that agree on the names of a sum. *)
Lemma evt_env E E' r t :
  (forall f, f \in t.2.2 -> forall ix, E f.1 ix = E' f.1 ix) ->
  evt D E r t = evt D E' r t.
Proof.
move=> h; rewrite /evt; congr (_ * _).
apply: (@bsum_ext F D (fvars t.2.2)) => // s s' hs.
rewrite (@evm_ext F E s s') //; rewrite /evm !big_seq; apply: eq_bigr => f hf.
exact: h.
Qed.
Lemma evpoly_env E E' (P : poly) ix :
  (forall t f, t \in P.2 -> f \in t.2.2 -> forall jx, E f.1 jx = E' f.1 jx) ->
  evpoly D E P ix = evpoly D E' P ix.
Proof.
move=> h; rewrite /evpoly /evp !big_seq; apply: eq_bigr => t ht.
by apply: evt_env => f hf; apply: (h t).
Qed.
Definition nodelta (P : poly) : bool :=
  all (fun t : term => all (fun f : fac => f.1 != "delta") t.2.2) P.2.
Lemma evpoly_wd E P ix : nodelta P -> evpoly D (wd E) P ix = evpoly D E P ix.
Proof.
move=> /allP h; apply: evpoly_env => t f /h /allP hf /hf.
by rewrite /wd => /negbTE ->.
Qed.
Lemma wd_shift c y e E n ix : wd (shift c y e E) n ix = shift c y e (wd E) n ix.
Proof.
rewrite /wd /shift /slope; case: (n == "delta") / eqP => [->|hn] /=.
  by rewrite mulr0 addr0.
by [].
Qed.

(** Kronecker symbols. *)
Lemma bsum_ext1 bs r r' (G : asg -> F) :
  (forall s s', s =1 s' -> G s = G s') -> r =1 r' -> bsum D bs r G = bsum D bs r' G.
Proof.
move=> hG; elim: bs r r' => [|d l IHl] r1 r2 h /=; first exact: hG.
by apply: eq_bigr => i _; apply: IHl => v; rewrite /updv h.
Qed.
Lemma bsum_rem x bs r (G : asg -> F) : x \in bs -> uniq bs ->
  (forall s s', s =1 s' -> G s = G s') ->
  bsum D bs r G = bsum D (x :: rem x bs) r G.
Proof.
move=> hx hu hG; elim: bs r hx hu => [|b bs IH] r //=.
rewrite inE => hx /andP [hb hu]; case: (eqVneq b x) => [->|hbx] //.
have hx' : x \in bs by case/orP: hx => // /eqP h; rewrite h eqxx in hbx.
transitivity (\sum_(i < D b.1) \sum_(j < D x.1) bsum D (rem x bs) (updv (updv r b i) x j) G).
  by apply: eq_bigr => i _; rewrite IH.
rewrite exchange_big /=; apply: eq_bigr => j _; apply: eq_bigr => i _.
apply: bsum_ext1 => // v; rewrite /updv.
by case: eqP => // ->; rewrite eq_sym (negbTE hbx).
Qed.

Lemma bsum_kron x y bs r (G : asg -> F) : x \notin bs -> y \notin bs -> x != y ->
  (r y < D x.1)%N ->
  (forall s s', s =1 s' -> G s = G s') ->
  bsum D (x :: bs) r (fun q => (q x == q y)%:R * G q) = bsum D bs (updv r x (r y)) G.
Proof.
move=> hx hy hxy hlt hG /=.
have e : forall j, bsum D bs (updv r x j) (fun q => (q x == q y)%:R * G q)
   = (j == r y)%:R * bsum D bs (updv r x j) G.
  move=> j; rewrite -bsum_scale.
  transitivity (bsum D bs (updv r x j) (fun q => (q x == r y)%:R * G q)).
    apply: (bsum_at hy) => q; rewrite /updv eq_sym (negbTE hxy) => ->; by [].
  apply: (bsum_at hx) => q; by rewrite /updv eqxx => ->.
under eq_bigr do rewrite e.
rewrite (bigD1 (Ordinal hlt)) //= eqxx mul1r big1 ?addr0 // => i hi.
have -> : (nat_of_ord i == r y) = false.
  by apply/eqP => h; case/eqP: hi; apply: val_inj.
by rewrite mul0r.
Qed.

Lemma ed_ok ys E r t : (forall y, y \in ys -> r y < D y.1)%N ->
  evt D (wd E) r (ed ys t) = evt D (wd E) r t.
Proof.
move=> hys; case: t => [zk [bs fs]]; rewrite /ed /=.
case hfil: [seq f <- fs | isdelta ys bs f] => [|f l] //.
have : f \in [seq f <- fs | isdelta ys bs f] by rewrite hfil mem_head.
rewrite mem_filter => /andP [/andP [/eqP hn hdel] hf].
case: f hn hdel hf {hfil l} => n [|y [|x [|? ?]]] //= -> {n}.
case/and4P=> hy hx hyb /eqP hk hf.
case: ifP => // /andP [hu hr].
have hxy : x != y by apply: contra hyb => /eqP <-.
rewrite (@evt_ren F D (wd E) (setx y x) r (updv r x (r y))) //; last first.
  by move=> v _ _; rewrite /setx /updv; case: ifP.
rewrite /evt /=; congr (_ * _).
rewrite (@bsum_rem x bs) //; last first.
  by move=> s s' hs; apply: evm_ext => v _; apply: hs.
symmetry.
transitivity (bsum D (x :: rem x bs) r
   (fun q => (q x == q y)%:R * evm (wd E) q (rem ("delta", [:: y; x]) fs))).
  apply: (@bsum_ext F D (x :: y :: fvars fs ++ fvars (rem ("delta", [:: y; x]) fs))) => // s s' hs.
  rewrite -(hs x) ?mem_head // -(hs y) ?inE ?eqxx ?orbT //.
  have -> : evm (wd E) s' (rem ("delta", [:: y; x]) fs) = evm (wd E) s (rem ("delta", [:: y; x]) fs).
    by apply: evm_ext => v hv; rewrite hs // !inE mem_cat hv !orbT.
  rewrite /evm (big_rem _ hf) /=; congr (_ * _).
  by rewrite /evf /wd /= eqseq_cons andbT.
apply: bsum_kron => //.
- by rewrite mem_rem_uniqF.
- by apply: contra hyb; apply: mem_rem.
- by rewrite -hk; apply: hys.
by move=> s s' hs; apply: evm_ext => v _; apply: hs.
Qed.

Lemma edp_ok ys E P ix : (forall y, y \in ys -> bindv P.1 ix y < D y.1)%N ->
  evpoly D (wd E) (edp ys P) ix = evpoly D (wd E) P ix.
Proof.
move=> h; rewrite /evpoly /evp /= big_map; apply: eq_bigr => t _.
by rewrite !ed_ok.
Qed.

Lemma zax_ok E k P Q ix : zax k P = Some Q -> size ix = size Q.1 ->
  evpoly D E P (nseq k 0%N ++ ix)%SEQ = evpoly D E Q ix.
Proof.
case/checkP=> /andP [hk hi] /= /andP [hu hz] <- /= hix.
rewrite /evpoly /= evp_inst ?bindv_zv //; last first.
  by rewrite size_cat size_nseq size_drop subnKC.
rewrite map_cat map_nseq bindv_zv // map_bindv //.
Qed.

End Der.
