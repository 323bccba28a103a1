(* Proofs about the sizes and the array elements of YbcModel. *)
From mathcomp Require Import all_ssreflect all_algebra.
From Verif Require Import YeeModel YeeSpec YeeProofs YbcModel YbcSpec YbcProg.
Set Implicit Arguments.
Unset Strict Implicit.
Unset Printing Implicit Defensive.
Import GRing.Theory Num.Theory.
Local Open Scope ring_scope.

(* ---- which elements are used ---- *)
Section Bounds.
Variable R : realFieldType.
Variables (z : sizes) (w : phases R).
Hypothesis px : (pisize z < misize z)%N.
Hypothesis py : (pjsize z < mjsize z)%N.
Hypothesis pz : (pksize z < mksize z)%N.
Hypothesis ux : use_periodic_x z -> ((isize z).+1 < misize z)%N.
Hypothesis uy : use_periodic_y z -> ((jsize z).+1 < mjsize z)%N.
Hypothesis cx_ : is_mirror (xparity z) -> (cisize z < misize z)%N.
Hypothesis cy_ : is_mirror (yparity z) -> (cjsize z < mjsize z)%N.
Hypothesis cz_ : is_mirror (zparity z) -> (cksize z < mksize z)%N.

Definition safe (prog : seq (asg R)) : Prop := forall l, touches prog l -> allocated z l.

Lemma safe0 : safe [::].
Proof. by move=> l [a []]. Qed.
Lemma safe_cat p1 p2 : safe p1 -> safe p2 -> safe (p1 ++ p2).
Proof.
move=> h1 h2 l [a [+ h]]; rewrite mem_cat => /orP [ha|ha]; [apply: h1|apply: h2]; by exists a.
Qed.
Lemma safe_if (b : bool) p1 : (b -> safe p1) -> safe (if b then p1 else [::]).
Proof. by case: b => h; [exact: h|exact: safe0]. Qed.
Lemma safe_loop n m body : (forall a b, (1 <= a < n)%N -> (1 <= b < m)%N -> safe (body a b)) ->
  safe (loop2 n m body).
Proof. by move=> h l [a [/mem_loop2 [i [k [hi hk ha]]] hl]]; apply: (h i k) => //; exists a. Qed.
Lemma safe_loopf lo n m body : (forall a b, (lo <= a < n)%N -> (1 <= b < m)%N -> safe (body a b)) ->
  safe (loop2_from lo n m body).
Proof. by move=> h l [a [/mem_loop2f [i [k [hi hk ha]]] hl]]; apply: (h i k) => //; exists a. Qed.
Lemma safe_cons d e prog : allocated z d -> (forall t, t \in e -> allocated z t.2) -> safe prog ->
  safe ((d, e) :: prog).
Proof.
move=> h1 h2 h3 l [a []]; rewrite in_cons => /orP [/eqP ->|ha].
  by case=> [->|[t [ht ->]]] //; exact: h2.
by move=> h; apply: h3; exists a.
Qed.
Lemma safe1 (x : R) l t : allocated z l -> t \in [:: (x, l)] -> allocated z t.2.
Proof. by rewrite inE => h /eqP ->. Qed.
Lemma safe2 (x y : R) l m t : allocated z l -> allocated z m ->
  t \in [:: (x, l); (y, m)] -> allocated z t.2.
Proof. by rewrite !inE => h1 h2 /orP [] /eqP ->. Qed.

Lemma in_p n m a : (1 <= a < n)%N -> (n < m)%N -> (a < m)%N.
Proof. by case/andP => _ h1 h2; exact: ltn_trans h1 h2. Qed.
Lemma in_s n m : (n.+1 < m)%N -> [/\ (0 < m)%N, (1 < m)%N, (n < m)%N & (n + 1 < m)%N].
Proof.
move=> h; rewrite addn1 h (ltn_trans (ltnSn n) h) (leq_ltn_trans (leq0n _) h).
by split=> //; exact: leq_ltn_trans (ltn0Sn n) h.
Qed.
Lemma in_c n m : (n < m)%N -> (n < m)%N /\ (n - 1 < m)%N.
Proof. by move=> h; split=> //; exact: leq_ltn_trans (leq_subr _ _) h. Qed.

Ltac here := rewrite /allocated /=; repeat (split; first by []); by [].
Ltac body := repeat (apply: safe_cons; [by repeat split| |]); try exact: safe0;
  move=> t; first [by [] | apply: safe2; by repeat split | apply: safe1; by repeat split].

Section X.
Hypothesis hx : ((isize z).+1 < misize z)%N.
Lemma safe_Ex : safe (E_periodic_x z w) /\ safe (H_periodic_x z w).
Proof.
by have [h0 h1 h2 h3] := in_s hx; split; apply: safe_loop => a b ha hb;
  have ha' := in_p ha py; have hb' := in_p hb pz; body.
Qed.
Lemma safe_EGx : safe (E_Gamma_x R z) /\ safe (H_Gamma_x R z).
Proof.
by have [h0 h1 h2 h3] := in_s hx; split; apply: safe_loop => a b ha hb;
  have ha' := in_p ha py; have hb' := in_p hb pz; body.
Qed.
End X.
Section Y.
Hypothesis hy : ((jsize z).+1 < mjsize z)%N.
Lemma safe_Ey : safe (E_periodic_y z w) /\ safe (H_periodic_y z w).
Proof.
by have [h0 h1 h2 h3] := in_s hy; split; apply: safe_loop => a b ha hb;
  have ha' := in_p ha px; have hb' := in_p hb pz; body.
Qed.
Lemma safe_EGy : safe (E_Gamma_y R z) /\ safe (H_Gamma_y R z).
Proof.
by have [h0 h1 h2 h3] := in_s hy; split; apply: safe_loop => a b ha hb;
  have ha' := in_p ha px; have hb' := in_p hb pz; body.
Qed.
Lemma low_in a : (1 <= a < pisize z - Uxh z)%N -> (a < misize z)%N /\ (a + Uxh z < misize z)%N.
Proof.
case/andP => _ h; have h' : (a + Uxh z < pisize z)%N by rewrite addnC -ltn_subRL.
have h2 := ltn_trans h' px; split=> //; exact: leq_ltn_trans (leq_addr _ _) h2.
Qed.
Lemma upp_in a : (pisize z - Uxh z <= a < pisize z)%N ->
  (a < misize z)%N /\ (a - Uxh z < misize z)%N.
Proof.
case/andP => _ h; have h' := ltn_trans h px; split=> //.
exact: leq_ltn_trans (leq_subr _ _) h'.
Qed.
Lemma safe_Ew : [/\ safe (E_periodic_Ywall z w), safe (H_periodic_Ywall z w),
  safe (E_Gamma_Ywall R z) & safe (H_Gamma_Ywall R z)].
Proof.
have [h0 h1 h2 h3] := in_s hy; split; apply: safe_cat;
  [apply: safe_loop|apply: safe_loopf|apply: safe_loop|apply: safe_loopf
  |apply: safe_loop|apply: safe_loopf|apply: safe_loop|apply: safe_loopf] => a b ha hb;
  first [have [ha' ha2] := low_in ha | have [ha' ha2] := upp_in ha];
  have hb' := in_p hb pz; body.
Qed.
End Y.

Lemma safe_par im : safe (Ez_parity_update R z im) /\ safe (Hz_parity_update R z im).
Proof.
have x1 : xparity z == 1 -> (cisize z < misize z)%N by move=> h; apply: cx_; rewrite /is_mirror h.
have x2 : xparity z == -1 -> (cisize z < misize z)%N by move=> h; apply: cx_; rewrite /is_mirror h orbT.
have y1 : yparity z == 1 -> (cjsize z < mjsize z)%N by move=> h; apply: cy_; rewrite /is_mirror h.
have y2 : yparity z == -1 -> (cjsize z < mjsize z)%N by move=> h; apply: cy_; rewrite /is_mirror h orbT.
have z1 : zparity z == 1 -> (cksize z < mksize z)%N by move=> h; apply: cz_; rewrite /is_mirror h.
have z2 : zparity z == -1 -> (cksize z < mksize z)%N by move=> h; apply: cz_; rewrite /is_mirror h orbT.
split; repeat apply: safe_cat; apply: safe_if => h; apply: safe_loop => a b ha hb;
  first [have [k1 k2] := in_c (x1 h); have ha' := in_p ha py; have hb' := in_p hb pz
        |have [k1 k2] := in_c (x2 h); have ha' := in_p ha py; have hb' := in_p hb pz
        |have [k1 k2] := in_c (y1 h); have ha' := in_p ha pz; have hb' := in_p hb px
        |have [k1 k2] := in_c (y2 h); have ha' := in_p ha pz; have hb' := in_p hb px
        |have [k1 k2] := in_c (z1 h); have ha' := in_p ha px; have hb' := in_p hb py
        |have [k1 k2] := in_c (z2 h); have ha' := in_p ha px; have hb' := in_p hb py]; body.
Qed.

Lemma safe_boundary tri : safe (E_boundary z w tri) /\ safe (H_boundary z w tri).
Proof.
have [p1 p2] := safe_par false; have [q1 q2] := safe_par true.
have hX : use_periodic_x z -> [/\ safe (E_periodic_x z w), safe (H_periodic_x z w),
  safe (E_Gamma_x R z) & safe (H_Gamma_x R z)].
  by move=> /ux h; have [? ?] := safe_Ex h; have [? ?] := safe_EGx h.
have hY : use_periodic_y z ->
  [/\ safe (if tri then E_periodic_Ywall z w else E_periodic_y z w),
      safe (if tri then H_periodic_Ywall z w else H_periodic_y z w),
      safe (if tri then E_Gamma_Ywall R z else E_Gamma_y R z) &
      safe (if tri then H_Gamma_Ywall R z else H_Gamma_y R z)].
  move=> /uy h; have [? ?] := safe_Ey h; have [? ?] := safe_EGy h; have [? ? ? ?] := safe_Ew h.
  by case: ifP.
rewrite /E_boundary /H_boundary; move: p1 p2 q1 q2.
move: (Ez_parity_update _ _ _) (Ez_parity_update _ _ _) (Hz_parity_update _ _ _)
  (Hz_parity_update _ _ _) => e1 e2 h1 h2 p1 p2 q1 q2.
split; do ?[apply: safe_cat] => //; apply: safe_if => //; case/andP => h _;
  first [by have [? ? ? ?] := hX h | by have [? ? ? ?] := hY h].
Qed.

Lemma safe_cell i j k l : interior (pisize z) (pjsize z) (pksize z) i j k ->
  neighbour i j k l -> allocated z l.
Proof.
move=> [/andP [i1 i2] [/andP [j1 j2] /andP [k1 k2]]].
have ai := ltn_trans i2 px; have aj := ltn_trans j2 py; have ak := ltn_trans k2 pz.
have bi := leq_ltn_trans i2 px; have bj := leq_ltn_trans j2 py; have bk := leq_ltn_trans k2 pz.
have ci := leq_ltn_trans (leq_pred i) ai; have cj := leq_ltn_trans (leq_pred j) aj.
have ck := leq_ltn_trans (leq_pred k) ak.
rewrite /neighbour /allocated !inE; case: l => l' [[a b] c] /=.
by do ?case/orP; move/eqP => [-> -> ->].
Qed.
End Bounds.

(* the sizes of a simulation: the box, then the mirror planes, then the
   periodic boundaries *)
Definition set_up (i j k : nat) (x y z : int) (x_on y_on : bool) : sizes :=
  periodic_boundary x_on y_on (Hz_parity x y z (default_sizes i j k)).

Lemma set_up_bounds (R : realFieldType) i j k x y z x_on y_on (w : phases R) tri
  (s := set_up i j k x y z x_on y_on) : (0 < i)%N -> (0 < j)%N -> (0 < k)%N ->
  (forall l, touches (E_boundary s w tri) l \/ touches (H_boundary s w tri) l -> allocated s l) /\
  (forall a b c l, interior (pisize s) (pjsize s) (pksize s) a b c ->
     neighbour a b c l -> allocated s l).
Proof.
move=> hi hj hk.
have half n : (0 < n)%N -> (n./2 < n + 2)%N /\ (n./2 < n./2 + 2)%N.
  move=> h; rewrite !addn2 !ltnS leqnSn; split=> //; apply: leq_trans (leqnSn n).
  by rewrite -{2}(odd_double_half n) -addnn addnA leq_addl.
have p1 n : (0 < n)%N -> (n - 1 < n)%N by move=> h; rewrite subn1 ltn_predL.
have s2 n : (n + 1 < n + 2)%N by rewrite ltn_add2l.
have px : (pisize s < misize s)%N by rewrite /s /=; case: ifP => _; [|case: ifP => _]; auto.
have py : (pjsize s < mjsize s)%N by rewrite /s /=; case: ifP => _; [|case: ifP => _]; auto.
have pz : (pksize s < mksize s)%N by rewrite /s /=; case: ifP => _; auto.
have ux : use_periodic_x s -> ((isize s).+1 < misize s)%N.
  by rewrite /s /= orbF => ->; rewrite addn2.
have uy : use_periodic_y s -> ((jsize s).+1 < mjsize s)%N.
  by rewrite /s /= orbF => ->; rewrite addn2.
have cx : is_mirror (xparity s) -> (cisize s < misize s)%N.
  by rewrite /s /= => ->; case: ifP => _; have [] := half i hi.
have cy : is_mirror (yparity s) -> (cjsize s < mjsize s)%N.
  by rewrite /s /= => ->; case: ifP => _; have [] := half j hj.
have cz : is_mirror (zparity s) -> (cksize s < mksize s)%N.
  by rewrite /s /= => ->; have [] := half k hk.
split=> [l|a b c l]; last exact: safe_cell.
have [h1 h2] := @safe_boundary R s w px py pz ux uy cx cy cz tri.
by case; [exact: h1|exact: h2].
Qed.

(* the other order: the mirror plane takes back the size of the periodic box *)
Lemma wrong_order (R : realFieldType) (w : phases R) :
  let s := Hz_parity 1 0 0 (periodic_boundary true false (default_sizes 10 10 10)) in
  exists l, touches (E_boundary s w false) l /\ ~ allocated s l.
Proof.
move=> s; exists (Eat false Ly 11 1 1); split; last by case.
have hin (P Q : seq (asg R)) e : (Eat false Ly 11 1 1, e) \in P -> touches (P ++ Q) (Eat false Ly 11 1 1).
  by move=> h; exists (Eat false Ly 11 1 1, e); rewrite mem_cat h; split=> //; left.
rewrite /E_boundary; have -> : use_periodic_x s by [].
have -> : use_periodic_y s = false by [].
have b1 (b : bool) : true && b = b by [].
have b2 (b : bool) : false && b = false by [].
rewrite !b1 !b2; case: (boolP (bloch w)) => hb; rewrite ?cat0s;
  apply: hin; apply/mem_loop2; exists 1%N, 1%N; split=> //; rewrite in_cons; apply/orP; right;
  exact: mem_head.
Qed.

(* ---- common multiples ---- *)
Lemma gcd_loop_ok fuel m n : (0 < n)%N -> (n <= fuel)%N -> gcd_loop fuel m n = Some (gcdn m n).
Proof.
elim: fuel m n => [|f ih] m n h0 hf; first by case: n h0 hf.
rewrite /= eqn0Ngt h0 /=; case: eqP => [e|/eqP e].
  by rewrite -gcdn_modl e gcd0n.
rewrite -/(gcd_loop f n (m %% n)) ih; first by rewrite gcdnC gcdn_modl.
  by rewrite lt0n.
by rewrite -ltnS; apply: leq_trans hf; rewrite ltn_mod.
Qed.
Lemma gcd2_ok m n : (0 < m)%N -> (0 < n)%N -> gcd2 m n = Some (gcdn m n).
Proof.
move=> hm hn; rewrite /gcd2; case: ifP => _; rewrite gcd_loop_ok //; by rewrite gcdnC.
Qed.
Lemma gcd2_zero m n : (m == 0%N) || (n == 0%N) -> gcd2 m n = None.
Proof.
rewrite /gcd2; case: m => [|m]; case: n => [|n] //= _; by rewrite ltn0.
Qed.
Lemma lcm2_ok m n : (0 < m)%N -> (0 < n)%N -> lcm2 m n = Some (lcmn m n).
Proof. by move=> hm hn; rewrite /lcm2 gcd2_ok. Qed.
Lemma lcm3_ok a b c : (0 < a)%N -> (0 < b)%N -> (0 < c)%N -> lcm3 a b c = Some (lcmn a (lcmn b c)).
Proof. by move=> ha hb hc; rewrite /lcm3 lcm2_ok // lcm2_ok // lcmn_gt0 hb. Qed.
Lemma spacings_ok a b c : (0 < a)%N -> (0 < b)%N -> (0 < c)%N -> exists dx dy dz l,
  [/\ spacings a b c = Some (dx, dy, dz), (dx * a = l)%N, (dy * b = l)%N, (dz * c = l)%N &
      forall m, (a %| m)%N -> (b %| m)%N -> (c %| m)%N -> (l %| m)%N] /\
  [/\ (0 < dx)%N, (0 < dy)%N & (0 < dz)%N].
Proof.
move=> ha hb hc.
have l0 : (0 < lcmn a (lcmn b c))%N by rewrite !lcmn_gt0 ha hb hc.
have la : (a %| lcmn a (lcmn b c))%N by exact: dvdn_lcml.
have lb : (b %| lcmn a (lcmn b c))%N by exact: dvdn_trans (dvdn_lcml b c) (dvdn_lcmr a _).
have lc : (c %| lcmn a (lcmn b c))%N by exact: dvdn_trans (dvdn_lcmr b c) (dvdn_lcmr a _).
have lm m : (a %| m)%N -> (b %| m)%N -> (c %| m)%N -> (lcmn a (lcmn b c) %| m)%N.
  by move=> h1 h2 h3; rewrite !dvdn_lcm h1 h2 h3.
have := lcm3_ok ha hb hc; rewrite /spacings => ->.
move: (lcmn a (lcmn b c)) l0 la lb lc lm => l l0 la lb lc lm.
exists (l %/ a)%N, (l %/ b)%N, (l %/ c)%N, l; split; first by split=> //; rewrite divnK.
by split; rewrite divn_gt0 //; apply: dvdn_leq.
Qed.
Lemma spacings_zero a b c : (a == 0%N) || (b == 0%N) || (c == 0%N) -> spacings a b c = None.
Proof.
move=> h; rewrite /spacings /lcm3.
case: (posnP b) => [b0|hb]; first by rewrite /lcm2 gcd2_zero ?b0.
case: (posnP c) => [c0|hc]; first by rewrite /lcm2 gcd2_zero ?c0 ?orbT.
rewrite lcm2_ok // /lcm2 gcd2_zero //; move: h.
by rewrite !eqn0Ngt hb hc !orbF => ->.
Qed.

Lemma spacing_z_pos a b c l n : lcm3 a b c = Some l ->
  (0 < n <= c)%N -> (0 < a)%N -> (0 < b)%N -> (0 < spacing_z l n)%N.
Proof.
move=> + /andP [n0 nc] ha hb; have hc := leq_trans n0 nc; rewrite lcm3_ok // => -[<-].
rewrite divn_gt0 //; apply: leq_trans nc _; apply: dvdn_leq; first by rewrite !lcmn_gt0 ha hb.
exact: dvdn_trans (dvdn_lcmr b c) (dvdn_lcmr a _).
Qed.
