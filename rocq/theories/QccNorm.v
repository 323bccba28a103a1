(** Normal forms of sums of terms: the letters summed over are renamed, the
    factors rewritten by (anti)symmetries of the arrays and sorted, equal terms
    are collected.  The lemmas say that the meaning is kept. *)
From Coq Require Import String Ascii.
From mathcomp Require Import all_ssreflect all_algebra.
From Verif Require Import QccModel QccSym.
Set Implicit Arguments.
Unset Strict Implicit.
Unset Printing Implicit Defensive.
Import GRing.Theory.
Local Open Scope ring_scope.

(* ------------------------------------------------------------------ *)
(** ** Functions *)

(** A rule (n, p, s, m): the entry ix of n is the entry (ix_p0, ix_p1, ..) of
    m, with the opposite sign if s. *)
Definition rule := (string * seq nat * bool * string)%type.

(** Orders used to choose one form; nothing depends on their properties. *)
Definition vcmp (a b : var) : comparison :=
  match Nat.compare a.1 b.1 with Eq => Nat.compare a.2 b.2 | c => c end.
Fixpoint lcmp (T : Type) (c : T -> T -> comparison) (l m : seq T) : comparison :=
  match l, m with
  | [::], [::] => Eq
  | [::], _ => Lt
  | _, [::] => Gt
  | a :: l', b :: m' => match c a b with Eq => lcmp c l' m' | x => x end
  end.
Definition fcmp (f g : fac) : comparison :=
  match String.compare f.1 g.1 with Eq => lcmp vcmp f.2 g.2 | c => c end.
Definition isLt (c : comparison) : bool := if c is Lt then true else false.
Definition isGt (c : comparison) : bool := if c is Gt then true else false.
Definition fle (f g : fac) : bool := ~~ isGt (fcmp f g).

Definition permx (T : Type) (d : T) (p : seq nat) (l : seq T) : seq T :=
  [seq nth d l i | i <- p].

Definition app_rule (ru : rule) (sf : bool * fac) : bool * fac :=
  let: (n, p, s, m) := ru in
  let new := permx zv p sf.2.2 in
  if (sf.2.1 == n) && (size sf.2.2 == size p) && all (fun i => i < size p)%N p
     && ((n != m) || isLt (lcmp vcmp new sf.2.2))
  then (s (+) sf.1, (m, new)) else sf.
Definition normf (R : seq rule) (f : fac) : bool * fac :=
  foldl (fun sf ru => app_rule ru sf) (false, f) R.

Definition isneg (l : seq (bool * fac)) : bool :=
  foldr (fun sf b => sf.1 (+) b) false l.

Fixpoint insv (b : var) (l : seq var) : seq var :=
  match l with
  | [::] => [:: b]
  | c :: l' => if isGt (vcmp b c) then c :: insv b l' else b :: l
  end.
(** Sorting the letters summed over (only if they are distinct). *)
Definition sortv (l : seq var) : seq var :=
  if uniq l then foldr insv [::] l else l.

Definition normt (R : seq rule) (t : term) : term :=
  let l := [seq normf R f | f <- t.2.2] in
  ((if isneg l then - t.1.1 else t.1.1, t.1.2),
   (sortv t.2.1, sort fle [seq sf.2 | sf <- l])).

Fixpoint insall (T : Type) (x : T) (l : seq T) : seq (seq T) :=
  match l with
  | [::] => [:: [:: x]]
  | y :: l' => (x :: l) :: [seq y :: m | m <- insall x l']
  end.
Fixpoint perms (T : Type) (l : seq T) : seq (seq T) :=
  match l with
  | [::] => [:: [::]]
  | x :: l' => flatten [seq insall x m | m <- perms l']
  end.

Definition ofk (k : nat) (bs : seq var) : seq var := [seq b <- bs | b.1 == k].
Definition tg (k : nat) (bs : seq var) : seq (seq var) :=
  perms [seq (k, (8 + i)%N) | i <- iota 0 (size (ofk k bs))].
Definition cands (bs : seq var) : seq (seq var) :=
  [seq (p.1 ++ p.2)%SEQ
  | p <- [seq (x, y) | x <- tg 0 bs, y <- [seq (p.1 ++ p.2)%SEQ
                                   | p <- [seq (x, y) | x <- tg 1 bs, y <- tg 2 bs]]]].
Definition srcs (bs : seq var) : seq var := (ofk 0 bs ++ ofk 1 bs ++ ofk 2 bs)%SEQ.
Definition swp (src dst : seq var) : var -> var :=
  fun v => if v \in src then nth zv dst (index v src) else v.
Definition tkle (t u : term) : bool := ~~ isGt (lcmp fcmp t.2.2 u.2.2).
(** The normal form of a term: the least of the forms found. *)
Definition better (R : seq rule) (t : term) (src : seq var)
  (best : option term) (dst : seq var) : option term :=
  let s := swp src dst in
  if renok s t then
    let u := normt R (rent s t) in
    match best with
    | Some b => if tkle b u then Some b else Some u
    | None => Some u
    end
  else best.
Definition canont (R : seq rule) (t : term) : term :=
  match foldl (better R t (srcs t.2.1)) None (cands t.2.1) with
  | Some b => b
  | None => t
  end.

(** Collecting: integers over the common denominator 2^8. *)
Definition kden : nat := 8.
Definition key := (seq var * seq fac)%type.
Fixpoint addk (k : key) (z : int) (l : seq (key * int)) : seq (key * int) :=
  match l with
  | [::] => [:: (k, z)]
  | (k', z') :: l' => if k == k' then (k', z' + z) :: l' else (k', z') :: addk k z l'
  end.
Definition collect (ts : seq term) : seq (key * int) :=
  [seq x <- foldl (fun l (t : term) => addk t.2 (t.1.1 * 2%:Z ^+ (kden - t.1.2)) l) [::] ts
  | x.2 != 0].

Definition dropz (Z : seq string) (ts : seq term) : seq term :=
  [seq t <- ts | ~~ has (fun f : fac => f.1 \in Z) t.2.2].
Definition negt (t : term) : term := ((- t.1.1, t.1.2), t.2).

(** The difference of two sums in normal form. *)
Definition pdiff (R : seq rule) (Z : seq string) (P Q : poly) :
  option (seq (key * int)) :=
  let xs := canon_ext [seq v.1 | v <- P.1] in
  let ts := (dropz Z P.2) in
  let us := (dropz Z Q.2) in
  if (size P.1 == size Q.1) && goodx xs
     && all (instok P.1 xs 20) ts && all (instok Q.1 xs 20) us
     && all (fun t : term => t.1.2 <= kden)%N (ts ++ us)
  then Some (collect [seq canont R t
                     | t <- ([seq instt P.1 xs 20 t | t <- ts]
                             ++ [seq negt (instt Q.1 xs 20 t) | t <- us])%SEQ])
  else None.

(** The sum for one photon mode: the letters of modes all stand for 0. *)
Definition mode0 (v : var) : var := if v.1 == 2%N then zv else v.
Definition onet (t : term) : term :=
  (t.1, ([seq b <- t.2.1 | b.1 != 2%N], [seq renf mode0 f | f <- t.2.2])).
Definition onep (P : poly) : poly := (P.1, [seq onet t | t <- P.2]).

(* ------------------------------------------------------------------ *)
(** ** The meaning is kept *)

Section Sound.
Variable F : fieldType.
Variable D : nat -> nat.
Variable E : env F.

Definition sg (s : bool) : F := if s then -1 else 1.
Definition rule_ok (ru : rule) : Prop :=
  let: (n, p, s, m) := ru in
  forall ix, size ix = size p -> E n ix = sg s * E m (permx 0%N p ix).

Lemma sgM a b : sg a * sg b = sg (a (+) b).
Proof. by case: a; case: b; rewrite /sg /= ?mulrNN ?mulr1 ?mul1r. Qed.

Lemma app_rule_ok ru r sf : rule_ok ru ->
  sg sf.1 * evf E r sf.2 = sg (app_rule ru sf).1 * evf E r (app_rule ru sf).2.
Proof.
case: ru => [[[n p] s] m] h; rewrite /app_rule.
case: ifP => // /andP [/andP [/andP [/eqP hn /eqP hs] /allP hp] _] /=.
rewrite /evf hn h ?size_map // mulrA sgM addbC; congr (_ * E _ _).
rewrite /permx -map_comp; apply/eq_in_map => i /hp hi /=.
by rewrite (nth_map zv) // hs.
Qed.

Lemma normf_ok R r f : (forall ru, ru \in R -> rule_ok ru) ->
  evf E r f = sg (normf R f).1 * evf E r (normf R f).2.
Proof.
move=> h; rewrite /normf.
have -> : evf E r f = sg (false, f).1 * evf E r (false, f).2 by rewrite mul1r.
elim: R (false, f) h => [|ru R IH] sf h //=.
have h1 : rule_ok ru by apply: h; rewrite mem_head.
rewrite (app_rule_ok r sf h1); apply: IH.
by move=> x hx; apply: h; rewrite inE hx orbT.
Qed.

Lemma bsum_ins b bs r (G : asg -> F) : b \notin bs -> uniq bs ->
  (forall s s', s =1 s' -> G s = G s') ->
  bsum D (insv b bs) r G = bsum D (b :: bs) r G.
Proof.
elim: bs r => [|c bs IH] r //= hb /andP [hc hu] hG; case: ifP => // _ /=.
move: hb; rewrite inE negb_or => /andP [hbc hb].
transitivity (\sum_(x < D c.1) \sum_(y < D b.1) bsum D bs (updv (updv r c x) b y) G).
  by apply: eq_bigr => x _; rewrite IH.
rewrite exchange_big /=; apply: eq_bigr => y _; apply: eq_bigr => x _.
have ext : forall l r1 r2, r1 =1 r2 -> bsum D l r1 G = bsum D l r2 G.
  elim=> [|d l IHl] r1 r2 h /=; first exact: hG.
  by apply: eq_bigr => i _; apply: IHl => v; rewrite /updv h.
apply: ext => v; rewrite /updv.
by case: eqP => // ->; rewrite (negbTE hbc).
Qed.

Lemma mem_insv b bs v : (v \in insv b bs) = (v \in b :: bs).
Proof.
elim: bs => [|c bs IH] //=; case: ifP => // _; rewrite inE IH !inE.
by case: (v == c); case: (v == b).
Qed.
Lemma uniq_insv b bs : uniq (insv b bs) = uniq (b :: bs).
Proof.
elim: bs => [|c bs IH] //=; case: ifP => // _ /=.
rewrite IH mem_insv /= !inE eq_sym !negb_or.
by case: (b == c); case: (c \in bs); case: (b \in bs); case: (uniq bs).
Qed.

Lemma bsum_sort bs r (G : asg -> F) :
  (forall s s', s =1 s' -> G s = G s') ->
  bsum D (sortv bs) r G = bsum D bs r G.
Proof.
move=> hG; rewrite /sortv; case: ifP => // hu.
have ext : forall l r1 r2, r1 =1 r2 -> bsum D l r1 G = bsum D l r2 G.
  elim=> [|d l IHl] r1 r2 h /=; first exact: hG.
  by apply: eq_bigr => i _; apply: IHl => v; rewrite /updv h.
have hmem : forall l v, (v \in foldr insv [::] l) = (v \in l).
  by elim=> [|b l IH] v //=; rewrite mem_insv !inE IH.
have hun : forall l, uniq (foldr insv [::] l) = uniq l.
  by elim=> [|b l IH] //=; rewrite uniq_insv /= hmem IH.
elim: bs r hu => [|b bs IH] r //= /andP [hb hu].
rewrite bsum_ins ?hmem ?hun //=.
by apply: eq_bigr => x _; apply: IH.
Qed.

Lemma cfN z k : cf F (- z) k = - cf F z k.
Proof. by rewrite /cf rmorphN mulNr. Qed.

Lemma normt_ok R r t : (forall ru, ru \in R -> rule_ok ru) ->
  evt D E r (normt R t) = evt D E r t.
Proof.
move=> h; rewrite /evt /normt /=.
rewrite bsum_sort; last first.
  by move=> s s' hs; apply: evm_ext => v _; apply: hs.
set l := [seq normf R f | f <- t.2.2].
have hm : forall q, evm E q t.2.2 = sg (isneg l) * evm E q (sort fle [seq sf.2 | sf <- l]).
  move=> q; rewrite /evm [in RHS](perm_big [seq sf.2 | sf <- l]) /=; last first.
    by rewrite perm_sort.
  rewrite /l; elim: t.2.2 => [|f fs IH] /=; first by rewrite !big_nil mulr1.
  rewrite !big_cons IH {1}(normf_ok _ _ h) mulrACA sgM.
  by [].
rewrite -[RHS]/(cf F t.1.1 t.1.2 * bsum D t.2.1 r (fun q => evm E q t.2.2)).
have -> : bsum D t.2.1 r (fun q => evm E q t.2.2)
   = sg (isneg l) * bsum D t.2.1 r (fun q => evm E q (sort fle [seq sf.2 | sf <- l])).
  rewrite -bsum_scale; apply: (@bsum_ext F D (fvars t.2.2 ++ fvars (sort fle [seq sf.2 | sf <- l]))) => // s s' hs.
  rewrite hm; congr (_ * _); apply: evm_ext => v hv; apply: hs.
  by rewrite mem_cat hv orbT.
rewrite mulrA; congr (_ * _); rewrite /sg; case: (isneg l); last by rewrite mulr1.
by rewrite cfN mulrN1.
Qed.

Lemma canont_ok R r t : (forall ru, ru \in R -> rule_ok ru) ->
  evt D E r (canont R t) = evt D E r t.
Proof.
move=> h; rewrite /canont.
set f := better _ _ _.
have : forall cs o, (forall b, o = Some b -> evt D E r b = evt D E r t) ->
   forall b, foldl f o cs = Some b -> evt D E r b = evt D E r t.
  elim=> [|dst cs IH] o ho b /=; first exact: ho.
  apply: IH => b' {b}; rewrite /f /better; case hr: (renok _ t); last exact: ho.
  have hu : evt D E r (normt R (rent (swp (srcs t.2.1) dst) t)) = evt D E r t.
    rewrite normt_ok //; apply: (@evt_ren F D E _ r r t hr) => v _ hv.
    rewrite /swp; case: ifP => // hs; case/negP: hv.
    move: hs; rewrite /srcs !mem_cat !mem_filter.
    by case/or3P=> /andP [].
  case: o ho => [o0|] ho; last by case=> <-.
  by case: ifP => _ [<-] //; apply: ho.
move=> /(_ (cands t.2.1) None); case: (foldl f None _) => [b|] //= hh.
by apply: hh.
Qed.

Definition evk r (k : key) : F := bsum D k.1 r (fun q => evm E q k.2).
Definition evl r (l : seq (key * int)) : F :=
  \sum_(x <- l) cf F x.2 kden * evk r x.1.

Lemma cfD z z' k : cf F (z + z') k = cf F z k + cf F z' k.
Proof. by rewrite /cf intrD mulrDl. Qed.

Lemma addk_ok r k z l : evl r (addk k z l) = cf F z kden * evk r k + evl r l.
Proof.
rewrite /evl; elim: l => [|[k' z'] l IH] /=; first by rewrite big_seq1 big_nil addr0.
case: eqP => [->|_]; rewrite !big_cons /=.
  by rewrite cfD mulrDl addrA [cf F z _ * _ + _]addrC.
by rewrite IH addrCA.
Qed.

Hypothesis two : 2%:R != 0 :> F.

Lemma cf_den z k : (k <= kden)%N -> cf F (z * 2%:Z ^+ (kden - k)) kden = cf F z k.
Proof.
move=> hk; rewrite /cf intrM.
have -> : (2%:Z ^+ (kden - k))%:~R = 2%:R ^+ (kden - k) :> F by rewrite rmorphX.
have e : 2%:R ^+ kden = 2%:R ^+ (kden - k) * 2%:R ^+ k :> F by rewrite -exprD subnK.
rewrite e invfM mulrA -[X in X * _ = _]mulrA mulfV ?mulr1 //.
by rewrite expf_neq0.
Qed.

Lemma collect_ok r ts : all (fun t : term => t.1.2 <= kden)%N ts ->
  evl r (collect ts) = evp D E r ts.
Proof.
move=> hall; rewrite /collect.
have hf : forall l, evl r [seq x <- l | x.2 != 0] = evl r l.
  move=> l; rewrite /evl big_filter [RHS](bigID (fun x => x.2 != 0)) /=.
  rewrite [X in _ + X]big1 ?addr0 // => x; rewrite negbK => /eqP ->.
  by rewrite /cf mul0r mul0r.
rewrite hf.
have : forall l, all (fun t : term => t.1.2 <= kden)%N ts ->
  evl r (foldl (fun l (t : term) => addk t.2 (t.1.1 * 2%:Z ^+ (kden - t.1.2)) l) l ts)
  = evl r l + evp D E r ts.
  elim: ts {hall} => [|t ts IH] l /=; first by rewrite /evp big_nil addr0.
  case/andP=> ht hts; rewrite IH // addk_ok /evp big_cons cf_den //.
  by rewrite -[evt D E r t]/(cf F t.1.1 t.1.2 * evk r t.2) addrCA addrA.
by move=> -> //; rewrite /evl big_nil add0r.
Qed.

Lemma dropz_ok Z r ts : (forall n ix, n \in Z -> E n ix = 0) ->
  evp D E r (dropz Z ts) = evp D E r ts.
Proof.
move=> hZ; rewrite /evp /dropz big_filter [RHS](bigID (fun t : term => ~~ has (fun f : fac => f.1 \in Z) t.2.2)) /=.
rewrite [X in _ + X]big1 ?addr0 // => t; rewrite negbK => /hasP [f hf hn].
rewrite /evt; have -> : bsum D t.2.1 r (fun q => evm E q t.2.2) = 0; last by rewrite mulr0.
have he : forall q, evm E q t.2.2 = 0.
  move=> q; rewrite /evm (big_rem f) //= /evf hZ // mul0r //.
elim: t.2.1 r => [|b bs IH] r /=; first exact: he.
by rewrite big1 // => x _; rewrite IH.
Qed.

Lemma canont_den R t : (canont R t).1.2 = t.1.2.
Proof.
rewrite /canont; set f := better _ _ _.
have : forall cs o, (forall b, o = Some b -> b.1.2 = t.1.2) ->
   forall b, foldl f o cs = Some b -> b.1.2 = t.1.2.
  elim=> [|dst cs IH] o ho b /=; first exact: ho.
  apply: IH => b' {b}; rewrite /f /better; case hr: (renok _ t); last exact: ho.
  case: o ho => [o0|] ho; last by case=> <-.
  by case: ifP => _ [<-] //; apply: ho.
move=> /(_ (cands t.2.1) None); case: (foldl f None _) => [b|] //= hh.
by apply: hh.
Qed.

Lemma evt_neg r t : evt D E r (negt t) = - evt D E r t.
Proof. by rewrite /evt /negt /= cfN mulNr. Qed.

(** The difference of two sums is the sum of the collected terms. *)
Lemma pdiff_ok R Z P Q l ix :
  (forall ru, ru \in R -> rule_ok ru) ->
  (forall n jx, n \in Z -> E n jx = 0) ->
  pdiff R Z P Q = Some l -> size ix = size P.1 ->
  evpoly D E P ix - evpoly D E Q ix
  = evl (bindv (canon_ext [seq v.1 | v <- P.1]) ix) l.
Proof.
move=> hR hZ; rewrite /pdiff.
set xs := canon_ext _; set ts := dropz _ _; set us := dropz _ _.
case: ifP => // /andP [/andP [/andP [/andP [/eqP hs hg] ht] hu] hk] [<-] hix.
rewrite collect_ok; last first.
  rewrite all_map; apply/allP => t; rewrite mem_cat /= canont_den.
  move/allP: hk => hk /orP [] /mapP [u hu' ->] /=; apply: hk;
    by rewrite mem_cat hu' ?orbT.
have /andP [xu xz] := hg.
have sx : size xs = size P.1 by rewrite size_canon_ext size_map.
rewrite /evp big_map.
transitivity (\sum_(t <- ([seq instt P.1 xs 20 t | t <- ts]
     ++ [seq negt (instt Q.1 xs 20 t) | t <- us])%SEQ) evt D E (bindv xs ix) t); last first.
  by apply: eq_bigr => t _; rewrite canont_ok.
rewrite big_cat /= !big_map.
under [X in _ = _ + X]eq_bigr do rewrite evt_neg.
rewrite sumrN /evpoly -(dropz_ok _ P.2 hZ) -(dropz_ok _ Q.2 hZ); congr (_ - _).
  rewrite -[RHS](big_map (instt P.1 xs 20) predT (evt D E (bindv xs ix))).
  rewrite -[RHS]/(evp D E (bindv xs ix) [seq instt P.1 xs 20 t | t <- ts]).
  by rewrite evp_inst ?bindv_zv // map_bindv // sx.
rewrite -[RHS](big_map (instt Q.1 xs 20) predT (evt D E (bindv xs ix))).
rewrite -[RHS]/(evp D E (bindv xs ix) [seq instt Q.1 xs 20 t | t <- us]).
by rewrite evp_inst ?bindv_zv // ?map_bindv // ?sx.
Qed.

(** One photon mode. *)
Hypothesis one_mode : D 2%N = 1%N.

Lemma onet_ok r t : (forall v : var, v.1 = 2%N -> r v = 0%N) -> r zv = 0%N ->
  zv \notin t.2.1 ->
  evt D E r (onet t) = evt D E r t.
Proof.
move=> hr hz hnz; rewrite /evt /onet /=; congr (_ * _).
elim: t.2.1 r hr hz hnz => [|b bs IH] r hr hz /= hnz.
  apply: (@evm_ren F E mode0 r r) => v _; rewrite /mode0.
  by case: eqP => // h; rewrite hz hr.
move: hnz; rewrite inE negb_or => /andP [hb hnz].
case: eqP => /= hk.
  rewrite hk one_mode big_ord1 IH //.
  apply: (@bsum_ext F D (fvars t.2.2)) => [v _ _|s s' hs]; last exact: evm_ext.
  by rewrite /updv; case: eqP => // ->; rewrite hr.
apply: eq_bigr => x _; apply: IH => //.
  move=> v hv; rewrite /updv; case: eqP => [h|_]; last exact: hr.
  by case: hk; rewrite -h.
by rewrite /updv (negbTE hb).
Qed.

Lemma onep_ok P ix : all (fun v : var => v.1 != 2%N) P.1 -> zv \notin P.1 ->
  all (fun t : term => zv \notin t.2.1) P.2 ->
  evpoly D E (onep P) ix = evpoly D E P ix.
Proof.
move=> /allP h1 h2 /allP h3; rewrite /evpoly /evp /= big_map !big_seq.
apply: eq_bigr => t ht; apply: onet_ok; rewrite ?bindv_zv //; last exact: h3.
move=> v hv; rewrite /bindv; case: ifP => // /h1.
by rewrite hv.
Qed.

End Sound.
