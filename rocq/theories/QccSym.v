(** Symbolic execution of the language of QccModel.v: every array becomes a sum
    of terms, a term being a coefficient times a sum over letters of a product
    of entries of the arrays passed in.  The functions below compute such sums
    and normalise them; the lemmas say that the meaning is kept. *)
From Coq Require Import String Ascii.
From mathcomp Require Import all_ssreflect all_algebra.
From Verif Require Import QccModel.
Set Implicit Arguments.
Unset Strict Implicit.
Unset Printing Implicit Defensive.
Import GRing.Theory.
Local Open Scope ring_scope.

(** A factor: an array and its letters.  A term: z, k (coefficient z/2^k), the
    letters summed over, and the factors. *)
Definition fac := (string * seq var)%type.
Definition term := (int * nat * (seq var * seq fac))%type.
(** A sum of terms with the letters of its axes. *)
Definition poly := (seq var * seq term)%type.

(** A letter that always has the value 0. *)
Definition zv : var := (4, 0)%N.

Definition fvars (fs : seq fac) : seq var := flatten [seq f.2 | f <- fs].

(** Renaming. *)
Definition renf (s : var -> var) (f : fac) : fac := (f.1, [seq s v | v <- f.2]).
Definition rent (s : var -> var) (t : term) : term :=
  (t.1, ([seq s v | v <- t.2.1], [seq renf s f | f <- t.2.2])).
Definition renok (s : var -> var) (t : term) : bool :=
  all (fun b => ((s b).1 == b.1)
                && all (fun v => (s v == s b) ==> (v == b)) (fvars t.2.2)) t.2.1.

(** Products of terms. *)
Definition mult (t u : term) : term :=
  (t.1.1 * u.1.1, (t.1.2 + u.1.2)%N, ((t.2.1 ++ u.2.1)%SEQ, (t.2.2 ++ u.2.2)%SEQ)).
Definition multok (t u : term) : bool :=
  ~~ has (mem (fvars u.2.2)) t.2.1 && ~~ has (mem (fvars t.2.2)) u.2.1.
Definition pre (bl : seq var) (t : term) : term := (t.1, ((bl ++ t.2.1)%SEQ, t.2.2)).

(** Putting letters [ys] for the axes [xs] of a term, with fresh letters from
    number [n] on for the letters summed over. *)
Definition sub (xs ys bs : seq var) (n : nat) : var -> var :=
  fun v => if v \in bs then (v.1, (n + index v bs)%N)
           else if v \in xs then nth zv ys (index v xs) else v.
Definition instt (xs ys : seq var) (n : nat) (t : term) : term :=
  rent (sub xs ys t.2.1 n) t.
Definition instok (xs ys : seq var) (n : nat) (t : term) : bool :=
  renok (sub xs ys t.2.1 n) t
  && all (fun v => [|| v \in t.2.1, v \in xs | v == zv]) (fvars t.2.2).

(** Symbolic environments. *)
Definition senv := seq (string * poly).
Definition canon_ext (ks : seq nat) : seq var := zip ks (iota 0 (size ks)).
Definition one : term := (1%:Z, 0%N, ([::], [::])).
Definition base_poly (n : string) : option poly :=
  match base_shape n with
  | Some ks => let xs := canon_ext ks in
               Some (xs, [:: (1%:Z, 0%N, ([::], [:: (n, xs)]))])
  | None => None
  end.
Definition getp (S : senv) (n : string) : option poly :=
  match lookup S n with Some P => Some P | None => base_poly n end.

Definition nn (a : term) : nat := (20 + size a.2.1)%N.
Fixpoint prodp (S : senv) (l : seq (seq var * atom)) (accs : seq term) :
  option (seq term) :=
  match l with
  | [::] => Some accs
  | p :: l' =>
      match getp S p.2.1 with
      | None => None
      | Some P =>
          let yy := (nseq p.2.2 zv ++ p.1)%SEQ in
          if (size yy == size P.1)
             && all (fun a => all (fun t => instok P.1 yy (nn a) t
                                    && multok a (instt P.1 yy (nn a) t)) P.2) accs
          then prodp S l' (flatten [seq [seq mult a (instt P.1 yy (nn a) t) | t <- P.2]
                                   | a <- accs])
          else None
      end
  end.

Definition goodx (xs : seq var) : bool := uniq xs && (zv \notin xs).
Definition check (b : bool) (P : poly) : option poly :=
  if b && goodx P.1 then Some P else None.
Definition ocheck (o : option (seq term)) (f : seq term -> poly) : option poly :=
  match o with Some ts => check true (f ts) | None => None end.

Definition saddp (P Q : poly) : option poly :=
  check ((size P.1 == size Q.1) && all (instok Q.1 P.1 20) Q.2)
        (P.1, (P.2 ++ [seq instt Q.1 P.1 20 t | t <- Q.2])%SEQ).

Fixpoint sex (S : senv) (e : ex) : option poly :=
  match e with
  | At a =>
      match getp S a.1 with
      | None => None
      | Some P => let zs := canon_ext (drop a.2 [seq v.1 | v <- P.1]) in
                  ocheck (prodp S [:: (zs, a)] [:: one]) (fun ts => (zs, ts))
      end
  | Zero s => check true (canon_ext (kinds s), [::])
  | Sc z k e' =>
      match sex S e' with
      | Some P => Some (P.1, [seq ((z * t.1.1, (k + t.1.2)%N), t.2) | t <- P.2])
      | None => None
      end
  | Add e1 e2 =>
      match sex S e1, sex S e2 with
      | Some P, Some Q => saddp P Q
      | _, _ => None
      end
  | Tr p e' =>
      match sex S e' with
      | None => None
      | Some P =>
          let zs := canon_ext [seq (nth zv P.1 j).1 | j <- p] in
          let ys := [seq nth zv zs (index j p) | j <- iota 0 (size p)] in
          check ((size p == size P.1) && all (mem p) (iota 0 (size p))
                 && all (instok P.1 ys 20) P.2)
                (zs, [seq instt P.1 ys 20 t | t <- P.2])
      end
  | Mul a e' =>
      match sex S e' with
      | None => None
      | Some P => ocheck (prodp S [:: ([::], a)] P.2) (fun ts => (P.1, ts))
      end
  | Ein s ops =>
      let: (ins, out) := spec_of s in
      let bl := bound ins out in
      if zv \notin bl
      then ocheck (prodp S (zip ins ops) [:: one]) (fun ts => (out, [seq pre bl t | t <- ts]))
      else None
  end.

Definition sstep (S : senv) (s : stmt) : option senv :=
  match sex S (rhs s) with
  | None => None
  | Some P =>
      if acc s then
        match getp S (tgt s) with
        | None => None
        | Some Q => match saddp Q P with
                    | Some R => Some ((tgt s, R) :: S)
                    | None => None
                    end
        end
      else Some ((tgt s, P) :: S)
  end.
Fixpoint sexec (S : senv) (p : prog) : option senv :=
  match p with
  | [::] => Some S
  | s :: p' => match sstep S s with Some S' => sexec S' p' | None => None end
  end.

(* ------------------------------------------------------------------ *)
(** ** The meaning is kept *)

Section Sound.
Variable F : fieldType.
Variable D : nat -> nat.
Implicit Types (E : env F) (r : asg).

Definition evf E r (f : fac) : F := E f.1 [seq r v | v <- f.2].
Definition evm E r (fs : seq fac) : F := \prod_(f <- fs) evf E r f.
Definition evt E r (t : term) : F :=
  cf F t.1.1 t.1.2 * bsum D t.2.1 r (fun r' => evm E r' t.2.2).
Definition evp E r (ts : seq term) : F := \sum_(t <- ts) evt E r t.
Definition evpoly E (P : poly) (ix : seq nat) : F := evp E (bindv P.1 ix) P.2.

Lemma bsum_ext (V : seq var) bs r r' (G G' : asg -> F) :
  (forall v, v \in V -> v \notin bs -> r v = r' v) ->
  (forall s s', (forall v, v \in V -> s v = s' v) -> G s = G' s') ->
  bsum D bs r G = bsum D bs r' G'.
Proof.
elim: bs r r' => [|b bs IH] r r' h hG /=; first by apply: hG => v hv; apply: h.
apply: eq_bigr => x _; apply: IH => // v hv hn.
rewrite /updv; case: eqP => // /eqP hb.
by apply: h => //; rewrite inE negb_or hb.
Qed.

Lemma evm_ext E r r' fs :
  (forall v, v \in fvars fs -> r v = r' v) -> evm E r fs = evm E r' fs.
Proof.
move=> h; rewrite /evm !big_seq; apply: eq_bigr => f hf.
rewrite /evf; congr (E _ _); apply/eq_in_map => v hv.
by apply: h; apply/flattenP; exists f.2 => //; apply/mapP; exists f.
Qed.

Lemma evt_ext E r r' t :
  (forall v, v \in fvars t.2.2 -> v \notin t.2.1 -> r v = r' v) ->
  evt E r t = evt E r' t.
Proof.
move=> h; rewrite /evt; congr (_ * _).
by apply: (@bsum_ext (fvars t.2.2)) => // s s' hs; apply: evm_ext.
Qed.

Lemma bsum_ren (V : seq var) (s : var -> var) bs r r0 (G G' : asg -> F) :
  (forall b, b \in bs -> (s b).1 = b.1) ->
  (forall b v, b \in bs -> v \in V -> s v = s b -> v = b) ->
  (forall v, v \in V -> v \notin bs -> r (s v) = r0 v) ->
  (forall q q0, (forall v, v \in V -> q (s v) = q0 v) -> G q = G' q0) ->
  bsum D [seq s b | b <- bs] r G = bsum D bs r0 G'.
Proof.
elim: bs r r0 => [|b bs IH] r r0 hk hi ha hG /=; first by apply: hG => v hv; apply: ha.
rewrite hk ?mem_head //; apply: eq_bigr => x _; apply: IH => //.
- by move=> c hc; apply: hk; rewrite inE hc orbT.
- by move=> c v hc hv; apply: hi => //; rewrite inE hc orbT.
move=> v hv hn; rewrite /updv.
case: (eqVneq v b) => [->|hb]; first by rewrite eqxx.
case: eqP => [hs|_]; first by case/eqP: hb; apply: (hi b v); rewrite ?mem_head.
by apply: ha => //; rewrite inE negb_or hb.
Qed.

Lemma fvars_ren s fs : fvars [seq renf s f | f <- fs] = [seq s v | v <- fvars fs].
Proof.
rewrite /fvars map_flatten -!map_comp; congr flatten; exact: eq_map.
Qed.

Lemma evm_ren E (s : var -> var) q q0 fs :
  (forall v, v \in fvars fs -> q (s v) = q0 v) ->
  evm E q [seq renf s f | f <- fs] = evm E q0 fs.
Proof.
move=> h; rewrite /evm big_map !big_seq; apply: eq_bigr => f hf.
rewrite /evf /renf /= -map_comp; congr (E _ _); apply/eq_in_map => v hv /=.
by apply: h; apply/flattenP; exists f.2 => //; apply/mapP; exists f.
Qed.

Lemma evt_ren E (s : var -> var) r r0 t :
  renok s t ->
  (forall v, v \in fvars t.2.2 -> v \notin t.2.1 -> r (s v) = r0 v) ->
  evt E r (rent s t) = evt E r0 t.
Proof.
move=> /allP ok h; rewrite /evt /rent /=; congr (_ * _).
apply: (@bsum_ren (fvars t.2.2)) => //.
- by move=> b /ok /andP [/eqP].
- by move=> b v /ok /andP [_ /allP hb] hv hs; apply/eqP; move: (hb v hv); rewrite hs eqxx.
by move=> q q0 hq; apply: evm_ren.
Qed.

Lemma bsum_scale bs r (c : F) G :
  bsum D bs r (fun q => c * G q) = c * bsum D bs r G.
Proof.
elim: bs r => [|b bs IH] r //=.
by rewrite big_distrr; apply: eq_bigr => x _; rewrite IH.
Qed.

Lemma bsum_sum (I : Type) (l : seq I) bs r (G : I -> asg -> F) :
  bsum D bs r (fun q => \sum_(i <- l) G i q) = \sum_(i <- l) bsum D bs r (G i).
Proof.
elim: bs r => [|b bs IH] r //=.
rewrite exchange_big /=; apply: eq_bigr => x _; exact: IH.
Qed.

Lemma bsum_cat bs1 bs2 r (G : asg -> F) :
  bsum D (bs1 ++ bs2)%SEQ r G = bsum D bs1 r (fun q => bsum D bs2 q G).
Proof. by elim: bs1 r => [|b bs IH] r //=; apply: eq_bigr => x _; rewrite IH. Qed.

Lemma evt_pre E bl r t : bsum D bl r (fun q => evt E q t) = evt E r (pre bl t).
Proof. by rewrite /evt /= bsum_scale bsum_cat. Qed.

(** [G] does not look at the letters [bs]. *)
Lemma bsum_mull (V : seq var) bs r (G H : asg -> F) :
  (forall s s', (forall v, v \in V -> s v = s' v) -> G s = G s') ->
  ~~ has (mem V) bs ->
  bsum D bs r (fun q => G q * H q) = G r * bsum D bs r H.
Proof.
move=> hG; elim: bs r => [|b bs IH] r //=; rewrite negb_or => /andP [hb hbs].
rewrite big_distrr; apply: eq_bigr => x _; rewrite IH //=; congr (_ * _).
apply: hG => v hv; rewrite /updv; case: eqP => // hvb.
by rewrite -hvb hv in hb.
Qed.

Lemma bsum_mulr (V : seq var) bs r (G : asg -> F) (H : F) :
  bsum D bs r (fun q => G q * H) = bsum D bs r G * H.
Proof.
elim: bs r => [|b bs IH] r //=.
by rewrite big_distrl; apply: eq_bigr => x _; rewrite IH.
Qed.

Lemma bsum_mul (V W : seq var) bs1 bs2 r (G H : asg -> F) :
  (forall s s', (forall v, v \in V -> s v = s' v) -> G s = G s') ->
  (forall s s', (forall v, v \in W -> s v = s' v) -> H s = H s') ->
  ~~ has (mem W) bs1 -> ~~ has (mem V) bs2 ->
  bsum D (bs1 ++ bs2)%SEQ r (fun q => G q * H q) = bsum D bs1 r G * bsum D bs2 r H.
Proof.
move=> hG hH h1 h2; rewrite bsum_cat.
transitivity (bsum D bs1 r (fun q => bsum D bs2 q H * G q)).
  apply: (@bsum_ext (V ++ W ++ bs2)) => // s s' hs.
  rewrite mulrC -(bsum_mull (V := V)) //.
  apply: (@bsum_ext (V ++ W ++ bs2)) => [v hv _|q q' hq]; first exact: hs.
  by congr (_ * _); [apply: hG|apply: hH] => v hv; apply: hq; rewrite !mem_cat hv ?orbT.
rewrite [RHS]mulrC; apply: (@bsum_mull W) => // s s' hs.
by apply: (@bsum_ext W) => // v hv _; apply: hs.
Qed.

Lemma cfM z1 k1 z2 k2 : cf F z1 k1 * cf F z2 k2 = cf F (z1 * z2) (k1 + k2)%N.
Proof. by rewrite /cf intrM exprD invfM mulrACA. Qed.

Lemma evt_mult E r t u : multok t u -> evt E r (mult t u) = evt E r t * evt E r u.
Proof.
move=> /andP [h1 h2]; rewrite /evt /mult /= -cfM.
rewrite [RHS]mulrACA; congr (_ * _); symmetry.
rewrite -(@bsum_mul (fvars t.2.2) (fvars u.2.2)) //; first symmetry.
- apply: (@bsum_ext (fvars t.2.2 ++ fvars u.2.2)) => // s s' hs.
  rewrite /evm big_cat /=; congr (_ * _); apply: evm_ext => v hv; apply: hs;
    by rewrite mem_cat hv ?orbT.
- by move=> s s'; apply: evm_ext.
- by move=> s s'; apply: evm_ext.
Qed.

Lemma evt_inst E r xs ys n t :
  instok xs ys n t -> size ys = size xs -> r zv = 0%N ->
  evt E r (instt xs ys n t) = evt E (bindv xs [seq r v | v <- ys]) t.
Proof.
move=> /andP [hr /allP hv] hs hz; apply: evt_ren => // v hf hb.
have := hv v hf; rewrite /sub /bindv (negbTE hb) /=.
case: ifP => [hx _|_ /= /eqP ->]; last by [].
by rewrite (nth_map zv) // hs index_mem.
Qed.

Lemma evp_inst E r xs ys n ts :
  all (instok xs ys n) ts -> size ys = size xs -> r zv = 0%N ->
  evp E r [seq instt xs ys n t | t <- ts] = evp E (bindv xs [seq r v | v <- ys]) ts.
Proof.
move=> /allP h hs hz; rewrite /evp big_map !big_seq; apply: eq_bigr => t ht.
by apply: evt_inst => //; apply: h.
Qed.

Lemma map_bindv xs ix : uniq xs -> size ix = size xs -> [seq bindv xs ix v | v <- xs] = ix.
Proof.
move=> hu hs; apply: (@eq_from_nth _ 0%N); first by rewrite size_map.
move=> i; rewrite size_map => hi.
rewrite (nth_map zv) // /bindv mem_nth // index_uniq //.
Qed.

Lemma bindv_zv xs ix : zv \notin xs -> bindv xs ix zv = 0%N.
Proof. by rewrite /bindv => /negbTE ->. Qed.

(** The arrays that a symbolic environment stands for. *)
Definition sound (S : senv) (E0 E : env F) :=
  forall n P, getp S n = Some P ->
    goodx P.1 /\ forall ix, size ix = size P.1 -> E n ix = evpoly E0 P ix.

Lemma evt_one E r : evt E r one = 1.
Proof. by rewrite /evt /one /= /cf /evm big_nil expr0 invr1 !mulr1. Qed.

Lemma prodp_sound S E0 E l accs out r :
  sound S E0 E -> r zv = 0%N -> prodp S l accs = Some out ->
  evp E0 r out = evp E0 r accs * \prod_(p <- l) at_val E p.2 [seq r v | v <- p.1].
Proof.
move=> hS hz; elim: l accs => [|p l IH] accs /=.
  by case=> ->; rewrite big_nil mulr1.
case hg: (getp S p.2.1) => [P|//]; case: ifP => // /andP [/eqP hsz /allP hall] /IH ->.
rewrite big_cons mulrA; congr (_ * _).
have [hx hP] := hS _ _ hg.
have -> : at_val E p.2 [seq r v | v <- p.1]
          = evpoly E0 P [seq r v | v <- (nseq p.2.2 zv ++ p.1)%SEQ].
  rewrite /at_val map_cat map_nseq hz -hP //.
  by rewrite size_cat size_nseq size_map -hsz size_cat size_nseq.
rewrite /evp big_flatten /= big_map big_distrl /=.
rewrite !big_seq; apply: eq_bigr => a ha; rewrite big_map /evpoly /evp big_distrr /=.
rewrite !big_seq; apply: eq_bigr => t ht.
have /allP /(_ t ht) /andP [hi hm] := hall a ha.
by rewrite evt_mult // evt_inst.
Qed.

Local Arguments prodp : simpl never.

Lemma checkP b P Q : check b P = Some Q -> [/\ b, goodx P.1 & P = Q].
Proof. by rewrite /check; case: ifP => // /andP [h1 h2] []. Qed.

Lemma ocheckP o f Q :
  ocheck o f = Some Q -> exists ts, [/\ o = Some ts, goodx (f ts).1 & f ts = Q].
Proof. by case: o => [ts|] //= /checkP [_ h1 h2]; exists ts. Qed.

Definition okp E0 (v : val F) (P : poly) :=
  goodx P.1 /\ forall ix, size ix = size P.1 -> v ix = evpoly E0 P ix.

Lemma saddp_sound E0 v w P Q R :
  okp E0 v P -> okp E0 w Q -> saddp P Q = Some R ->
  okp E0 (fun ix => v ix + w ix) R.
Proof.
move=> [gP hP] [gQ hQ] /checkP [/andP [/eqP hs hi] hg <-]; split=> // ix /= hix.
rewrite hP // hQ /=; last by rewrite -hs.
have /andP [uP zP] := gP.
rewrite /evpoly /= /evp big_cat /=; congr (_ + _).
rewrite -[RHS]/(evp E0 (bindv P.1 ix) [seq instt Q.1 P.1 20 t | t <- Q.2]).
rewrite evp_inst // ?bindv_zv //.
by rewrite map_bindv.
Qed.

Lemma size_canon_ext ks : size (canon_ext ks) = size ks.
Proof. by rewrite /canon_ext size_zip size_iota minnn. Qed.

Lemma sex_sound S E0 E e P :
  sound S E0 E -> sex S e = Some P -> okp E0 (den D E e) P.
Proof.
move=> hS; elim: e P => [a|s|z k e IH|e1 IH1 e2 IH2|p e IH|a e IH|s ops] P /=.
- case hg: (getp S a.1) => [Q|//].
  set zs := canon_ext _ => /ocheckP [ts [hts /= hgx <-]].
  split=> // ix /= hix; have /andP [hu hz] := hgx.
  rewrite /evpoly /= (prodp_sound hS _ hts) ?bindv_zv //.
  by rewrite /evp big_seq1 evt_one mul1r big_seq1 /= map_bindv.
- case/checkP=> _ hg <-; split=> // ix _; by rewrite /evpoly /evp big_nil.
- case he: (sex S e) => [Q|//] [<-]; have [hg hQ] := IH _ he; split=> // ix hix.
  rewrite hQ // /evpoly /evp /= big_map big_distrr; apply: eq_bigr => t _.
  by rewrite /evt /= -cfM -mulrA.
- case h1: (sex S e1) => [P1|//]; case h2: (sex S e2) => [P2|//] h.
  exact: (saddp_sound (IH1 _ h1) (IH2 _ h2) h).
- case he: (sex S e) => [Q|//]; set zs := canon_ext _; set ys := [seq _ | j <- iota _ _].
  case/checkP=> /andP [/andP [/eqP hp /allP hin] hi] /= hgx <-.
  have [hg hQ] := IH _ he; split=> // ix /= hix.
  have /andP [hu hz] := hgx.
  have szs : size zs = size p by rewrite size_canon_ext size_map.
  rewrite hQ ?size_map ?size_iota // /evpoly /= evp_inst ?bindv_zv //;
    last by rewrite /ys size_map size_iota.
  congr (evp E0 (bindv _ _) _); rewrite /ys -map_comp; apply/eq_in_map => j hj /=.
  have hlt : (index j p < size zs)%N by rewrite szs index_mem; apply: hin.
  by rewrite /bindv mem_nth // index_uniq.
- case he: (sex S e) => [Q|//] /ocheckP [ts [hts /= hgx <-]].
  have [hg hQ] := IH _ he; split=> // ix /= hix; have /andP [hu hz] := hgx.
  by rewrite hQ // /evpoly (prodp_sound hS _ hts) ?bindv_zv //= big_seq1 mulrC.
- case hsp: (spec_of s) => [ins out]; case: ifP => // hbl /ocheckP [ts [hts /= hgx <-]].
  split=> // ix /= hix; have /andP [hu hz] := hgx.
  rewrite /einsum hsp /evpoly /evp /= big_map.
  rewrite -[LHS]/(bsum D (bound ins out) (bindv out ix) _).
  under eq_bigr do rewrite -evt_pre.
  rewrite -bsum_sum.
  have hnn : forall bs r G G', zv \notin bs -> r zv = 0%N ->
     (forall q, q zv = 0%N -> G q = G' q) -> bsum D bs r G = bsum D bs r G' :> F.
    elim=> [|b bs IHb] r G G' /= hn hr hG; first exact: hG.
    apply: eq_bigr => x _; apply: IHb => //.
      by move: hn; rewrite inE negb_or => /andP [].
    rewrite /updv; case: eqP => // hzb; by rewrite -hzb mem_head in hn.
  apply: hnn; rewrite ?bindv_zv // => q hq.
  by rewrite -/(evp E0 q ts) (prodp_sound hS hq hts) /evp big_seq1 evt_one mul1r.
Qed.

Lemma getp_cons S n P m :
  getp ((n, P) :: S) m = if m == n then Some P else getp S m.
Proof. by rewrite /getp /=; case: ifP. Qed.

Lemma sstep_sound S E0 E s S' :
  sound S E0 E -> sstep S s = Some S' -> sound S' E0 (step D E s).
Proof.
move=> hS; rewrite /sstep; case he: (sex S (rhs s)) => [P|//].
have hP := sex_sound hS he; case hacc: (acc s).
  case hg: (getp S (tgt s)) => [Q|//]; case ha: (saddp Q P) => [R|//] [<-] m W.
  rewrite getp_cons /step; case: ifP => [/eqP -> [<-]|_]; last exact: hS.
  rewrite hacc; exact: (saddp_sound (hS _ _ hg) hP ha).
case=> <- m W; rewrite getp_cons /step hacc; case: ifP => [_ [<-]|_]; last exact: hS.
by case: hP => hg hh; split=> // ix /hh <-; rewrite add0r.
Qed.

Lemma sexec_sound S E0 E p S' :
  sound S E0 E -> sexec S p = Some S' -> sound S' E0 (exec D p E).
Proof.
elim: p S E => [|s p IH] S E hS /=; first by case=> <-.
case hs: (sstep S s) => [S1|//]; apply: IH; exact: (sstep_sound hS hs).
Qed.

Lemma base_sound E : (forall n ks, base_shape n = Some ks -> goodx (canon_ext ks)) ->
  sound [::] E E.
Proof.
move=> hb n P; rewrite /getp /= /base_poly.
case hn: (base_shape n) => [ks|//] [<-]; have hg := hb _ _ hn; split=> // ix hix.
rewrite /evpoly /evp big_seq1 /evt /= /cf expr0 invr1 !mulr1 mul1r /evm big_seq1 /evf /=.
by have /andP [hu _] := hg; rewrite map_bindv.
Qed.

End Sound.
