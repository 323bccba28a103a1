(* Proofs about the Yee update of YeeModel. *)
From mathcomp Require Import all_ssreflect all_algebra.
From Coq Require Import Ring Field.
From Verif Require Import YeeModel YeeSpec.
Set Implicit Arguments.
Unset Strict Implicit.
Unset Printing Implicit Defensive.
Import Order.TTheory GRing.Theory Num.Theory.
Local Open Scope ring_scope.

(* ---------------------------------------------------------------- *)
(* field identities, over an abstract field *)
Section AbsField.
Variables (T : Type) (O I : T) (add mul sub : T -> T -> T) (opp : T -> T)
  (div : T -> T -> T) (inv : T -> T).
Variable Tf : field_theory O I add mul sub opp div inv (@eq T).
Add Field TF : Tf.
Local Notation "x +! y" := (add x y) (at level 50, left associativity).
Local Notation "x -! y" := (sub x y) (at level 50, left associativity).
Local Notation "x *! y" := (mul x y) (at level 40, left associativity).
Local Notation "x /! y" := (div x y) (at level 40, left associativity).
Local Notation two := (I +! I).

Lemma af_normal dt eo eps e c :
  dt <> O -> eo <> O -> eps <> O ->
  eo *! eps *! ((e +! dt /! eo /! eps *! c) -! e) /! dt = c.
Proof. by move=> h1 h2 h3; field. Qed.

Lemma af_faraday dt u ups h c :
  dt <> O -> u <> O -> ups <> O ->
  u *! ups *! ((h -! dt /! u /! ups *! c) -! h) /! dt = opp c.
Proof. by move=> h1 h2 h3; field. Qed.

(* Drude: the two equations solved by one metal step *)
Definition af_km g dt := (two -! g *! dt) /! (two +! g *! dt).
Definition af_bm g dt w eo := w *! w *! eo *! dt /! (two +! g *! dt).
Definition af_e g dt w eo m e c J :=
  ((two *! eo *! m -! dt *! af_bm g dt w eo) /!
   (two *! eo *! m +! dt *! af_bm g dt w eo)) *! e +!
  (two *! dt /! (two *! eo *! m +! dt *! af_bm g dt w eo)) *!
  (c -! inv two *! (I +! af_km g dt) *! J).
Definition af_j g dt w eo e' e J :=
  af_km g dt *! J +! af_bm g dt w eo *! (e' +! e).

Lemma af_den g dt w eo m : two +! g *! dt <> O ->
  two *! eo *! m *! (two +! g *! dt) +! dt *! (w *! w *! eo *! dt) <> O ->
  two *! eo *! m +! dt *! af_bm g dt w eo <> O.
Proof.
move=> h1 h2 h3; apply: h2.
transitivity ((two *! eo *! m +! dt *! af_bm g dt w eo) *! (two +! g *! dt)).
  by rewrite /af_bm; field.
by rewrite h3; ring.
Qed.

Lemma af_metal_e g dt w eo m e c J :
  two <> O -> dt <> O -> two +! g *! dt <> O ->
  two *! eo *! m *! (two +! g *! dt) +! dt *! (w *! w *! eo *! dt) <> O ->
  eo *! m *! (af_e g dt w eo m e c J -! e) /! dt =
  c -! (af_j g dt w eo (af_e g dt w eo m e c J) e J +! J) /! two.
Proof.
move=> h2 hd hg hm; rewrite /af_j /af_e /af_bm /af_km; field; do !split => //.
Qed.

Lemma af_metal_j g dt w eo e' e J :
  two <> O -> dt <> O -> two +! g *! dt <> O ->
  (af_j g dt w eo e' e J -! J) /! dt +!
    g *! ((af_j g dt w eo e' e J +! J) /! two) =
  eo *! (w *! w) *! ((e' +! e) /! two).
Proof. by move=> h2 hd hg; rewrite /af_j /af_bm /af_km; field; do !split. Qed.

(* energy balance from the two Drude equations *)
Lemma af_metal_energy g dt w eo m e e' c J J' :
  two <> O -> dt <> O -> eo <> O -> w <> O ->
  eo *! m *! (e' -! e) /! dt = c -! (J' +! J) /! two ->
  (J' -! J) /! dt +! g *! ((J' +! J) /! two) =
    eo *! (w *! w) *! ((e' +! e) /! two) ->
  (eo *! m *! (e' *! e') +! J' *! J' /! (eo *! (w *! w))) -!
  (eo *! m *! (e *! e) +! J *! J /! (eo *! (w *! w))) +!
  g *! dt *! ((J' +! J) *! (J' +! J)) /! (two *! eo *! (w *! w)) =
  dt *! c *! (e' +! e).
Proof.
move=> h2 hd he hw h h'.
transitivity (dt *! ((eo *! m *! (e' -! e) /! dt) *! (e' +! e) +!
   ((J' -! J) /! dt +! g *! ((J' +! J) /! two)) *! (J' +! J) /! (eo *! (w *! w)))).
  by field; do !split.
by rewrite h h'; field; do !split.
Qed.

Lemma af_normal_energy dt eo eps e e' c : dt <> O ->
  eo *! eps *! (e' -! e) /! dt = c ->
  eo *! eps *! (e' *! e') -! eo *! eps *! (e *! e) = dt *! c *! (e' +! e).
Proof. by move=> hd <-; field. Qed.

(* the absorbing layer *)
Lemma af_pml_d eo kap sig dt d c : two <> O -> eo <> O -> dt <> O ->
  two *! eo *! kap +! dt *! sig <> O ->
  let d' := (two *! eo *! kap -! dt *! sig) /! (two *! eo *! kap +! dt *! sig) *! d +!
            (two *! eo *! dt) /! (two *! eo *! kap +! dt *! sig) *! c in
  kap *! (d' -! d) /! dt +! sig *! ((d' +! d) /! two) /! eo = c.
Proof. by move=> h2 he hd hk d'; rewrite /d'; field; do !split. Qed.

Lemma af_pml_e eo kap sig kap' sig' dt eps e d d' : two <> O -> eo <> O ->
  dt <> O -> eps <> O -> two *! eo *! kap +! dt *! sig <> O ->
  let e' := (two *! eo *! kap -! dt *! sig) /! (two *! eo *! kap +! dt *! sig) *! e +!
            two /! (two *! eo *! kap +! dt *! sig) /! eps *!
            ((kap' +! dt *! sig' /! two /! eo) *! d' -!
             (kap' -! dt *! sig' /! two /! eo) *! d) in
  eo *! eps *! (kap *! (e' -! e) /! dt +! sig *! ((e' +! e) /! two) /! eo) =
  kap' *! (d' -! d) /! dt +! sig' *! ((d' +! d) /! two) /! eo.
Proof. by move=> h2 he hd hp hk e'; rewrite /e'; field; do !split. Qed.

Lemma af_pml_h eo kap sig kap' sig' dt u ups e d d' : two <> O -> eo <> O ->
  dt <> O -> u <> O -> ups <> O -> two *! eo *! kap +! dt *! sig <> O ->
  let e' := (two *! eo *! kap -! dt *! sig) /! (two *! eo *! kap +! dt *! sig) *! e +!
            (two *! eo) /! (two *! eo *! kap +! dt *! sig) /! u /! ups *!
            ((kap' +! dt *! sig' /! two /! eo) *! d' -!
             (kap' -! dt *! sig' /! two /! eo) *! d) in
  u *! ups *! (kap *! (e' -! e) /! dt +! sig *! ((e' +! e) /! two) /! eo) =
  kap' *! (d' -! d) /! dt +! sig' *! ((d' +! d) /! two) /! eo.
Proof. by move=> h2 he hd hu hp hk e'; rewrite /e'; field; do !split. Qed.

Lemma af_pml_b eo kap sig dt d c : two <> O -> eo <> O -> dt <> O ->
  two *! eo *! kap +! dt *! sig <> O ->
  let d' := (two *! eo *! kap -! dt *! sig) /! (two *! eo *! kap +! dt *! sig) *! d -!
            (two *! eo *! dt) /! (two *! eo *! kap +! dt *! sig) *! c in
  kap *! (d' -! d) /! dt +! sig *! ((d' +! d) /! two) /! eo = opp c.
Proof. by move=> h2 he hd hk d'; rewrite /d'; field; do !split. Qed.

(* the integrand of E . curl H, term by term *)
Lemma af_power_E w du nz idx idy ex ey ez hx hx1y hx1z hy hy1x hy1z hz hz1x hz1y :
  du <> O ->
  w *! (du *! (ex *! ((hz -! hz1y) *! idy -! (hy -! hy1z) *! inv du) +!
               ey *! ((hx -! hx1z) *! inv du -! (hz -! hz1x) *! idx)) +!
        nz *! (ez *! ((hy -! hy1x) *! idx -! (hx -! hx1y) *! idy))) =
  w *! du *! idy *! (ex *! (hz -! hz1y)) +!
  (opp (w *! (ex *! (hy -! hy1z))) +!
  (w *! (ey *! (hx -! hx1z)) +!
  (opp (w *! du *! idx *! (ey *! (hz -! hz1x))) +!
  (w *! nz *! idx *! (ez *! (hy -! hy1x)) +!
   opp (w *! nz *! idy *! (ez *! (hx -! hx1y))))))).
Proof. by move=> h; field. Qed.

Lemma af_power_H w du nz idx idy hx hy hz ex ex1y ex1z ey ey1x ey1z ez ez1x ez1y :
  nz <> O ->
  w *! (nz *! (hx *! ((ez1y -! ez) *! idy -! (ey1z -! ey) *! inv nz) +!
               hy *! ((ex1z -! ex) *! inv nz -! (ez1x -! ez) *! idx)) +!
        du *! (hz *! ((ey1x -! ey) *! idx -! (ex1y -! ex) *! idy))) =
  opp (w *! du *! idy *! (hz *! (ex1y -! ex))) +!
  (w *! (hy *! (ex1z -! ex)) +!
  (opp (w *! (hx *! (ey1z -! ey))) +!
  (w *! du *! idx *! (hz *! (ey1x -! ey)) +!
  (opp (w *! nz *! idx *! (hy *! (ez1x -! ez))) +!
   w *! nz *! idy *! (hx *! (ez1y -! ez)))))).
Proof. by move=> h; field. Qed.

Lemma af_h mu dt h0 h1 h2 c1 c2 : dt <> O ->
  mu *! (h1 -! h0) /! dt = opp c1 -> mu *! (h2 -! h1) /! dt = opp c2 ->
  mu *! (h1 *! h2) -! mu *! (h0 *! h1) = opp (dt *! (h1 *! (c2 +! c1))).
Proof.
move=> hd e1 e2.
transitivity (dt *! (h1 *! (mu *! (h2 -! h1) /! dt +! mu *! (h1 -! h0) /! dt))).
  by field.
by rewrite e1 e2; ring.
Qed.

(* collecting the energy balance of one cell *)
Lemma af_cell w dt mu du nz ux uy uz ux' uy' uz' qx qy qz
    a0 a1 b0 b1 d0 d1 px py pz rx ry rz :
  (ux' -! ux +! qx = dt *! px) -> (uy' -! uy +! qy = dt *! py) ->
  (uz' -! uz +! qz = dt *! pz) ->
  mu *! a1 -! mu *! a0 = opp (dt *! rx) -> mu *! b1 -! mu *! b0 = opp (dt *! ry) ->
  mu *! d1 -! mu *! d0 = opp (dt *! rz) ->
  w *! (du *! (ux' +! uy') +! nz *! uz' +! mu *! (nz *! (a1 +! b1) +! du *! d1)) +!
  w *! (du *! (qx +! qy) +! nz *! qz) =
  w *! (du *! (ux +! uy) +! nz *! uz +! mu *! (nz *! (a0 +! b0) +! du *! d0)) +!
  (dt *! (w *! (du *! (px +! py) +! nz *! pz)) -!
   dt *! (w *! (nz *! (rx +! ry) +! du *! rz))).
Proof.
move=> h1 h2 h3 h4 h5 h6.
transitivity (w *! (du *! (ux +! uy) +! nz *! uz +! mu *! (nz *! (a0 +! b0) +! du *! d0)) +!
  w *! (du *! ((ux' -! ux +! qx) +! (uy' -! uy +! qy)) +! nz *! (uz' -! uz +! qz) +!
        (nz *! ((mu *! a1 -! mu *! a0) +! (mu *! b1 -! mu *! b0)) +!
         du *! (mu *! d1 -! mu *! d0)))); first by ring.
by rewrite h1 h2 h3 h4 h5 h6; ring.
Qed.

Lemma af_curl_add (a a' b b' c c' d d' y z : T) :
  ((a +! a') -! (b +! b')) *! y -! ((c +! c') -! (d +! d')) *! z =
  ((a -! b) *! y -! (c -! d) *! z) +! ((a' -! b') *! y -! (c' -! d') *! z).
Proof. by ring. Qed.

Lemma af_sqB (u v : T) :
  two *! (u *! u +! v *! v) -! (u -! v) *! (u -! v) = (u +! v) *! (u +! v).
Proof. by ring. Qed.

Lemma af_sq2 (c d f g : T) :
  (c *! f -! d *! g) *! (c *! f -! d *! g) =
  c *! c *! (f *! f) +! (d *! d *! (g *! g) -! two *! (c *! d) *! (f *! g)).
Proof. by ring. Qed.
Lemma af_sq3 (c d e f g h : T) :
  (c *! f +! d *! g +! e *! h) *! (c *! f +! d *! g +! e *! h) =
  c *! c *! (f *! f) +! (d *! d *! (g *! g) +! (e *! e *! (h *! h) +!
  (two *! (c *! d) *! (f *! g) +! (two *! (d *! e) *! (g *! h) +! two *! (e *! c) *! (h *! f))))).
Proof. by ring. Qed.
Lemma af_sharp (x y z zy yz xz zx yx xy bx by_ bz qyz qzx qxy : T) :
  (y *! y *! zy +! (z *! z *! yz -! two *! (y *! z) *! qyz)) +!
  (z *! z *! xz +! (x *! x *! zx -! two *! (z *! x) *! qzx)) +!
  (x *! x *! yx +! (y *! y *! xy -! two *! (x *! y) *! qxy)) +!
  (x *! x *! bx +! (y *! y *! by_ +! (z *! z *! bz +!
    (two *! (x *! y) *! qxy +! (two *! (y *! z) *! qyz +! two *! (z *! x) *! qzx))))) =
  x *! x *! (bx +! yx +! zx) +! y *! y *! (xy +! by_ +! zy) +! z *! z *! (xz +! yz +! bz).
Proof. by ring. Qed.

Lemma af_hh (h2 : two <> O) (h4 : two *! two <> O) (a b t : T) :
  a *! (a +! t *! b) = (a +! t *! b /! two) *! (a +! t *! b /! two) -!
  t *! t *! (b *! b) /! (two *! two).
Proof. by field; do ?split. Qed.

Lemma af_split (x y z eo mu ex ey ez qx qy qz gx gy gz t4 tt cx cy cz : T) :
  x *! y *! (z *! (eo *! ex *! qx +! eo *! ey *! qy) +! z *! (eo *! ez *! qz) +!
    mu *! (z *! ((gx -! tt *! cx *! t4) +! (gy -! tt *! cy *! t4)) +!
           z *! (gz -! tt *! cz *! t4))) =
  x *! y *! z *! (eo *! (ex *! qx +! ey *! qy +! ez *! qz) +!
    mu *! ((gx +! gy +! gz) +! opp (tt *! t4 *! (cx +! cy +! cz)))).
Proof. by ring. Qed.

Lemma af_kap (dt S mu f A : T) : mu <> O -> f <> O ->
  (dt *! dt) *! S /! mu *! A =
  mu *! ((dt /! mu) *! (dt /! mu) /! f *! (f *! S *! A)).
Proof. by move=> h1 h2; field; do ?split. Qed.

Lemma af_regroup (b q gx gy gz cx cy cz : T) :
  b *! ((gx +! gy +! gz) +! q *! (cx +! cy +! cz)) =
  b *! (gx +! q *! cx) +! b *! (gy +! q *! cy) +! b *! (gz +! q *! cz).
Proof. by ring. Qed.

Lemma af_relax eo dt kap sig f f' : two <> O -> eo <> O -> dt <> O ->
  (f' *! f' -! f *! f) *! (kap /! dt) =
  (kap *! (f' -! f) /! dt +! sig *! ((f' +! f) /! two) /! eo) *! (f' +! f) -!
  (sig /! (two *! eo)) *! ((f' +! f) *! (f' +! f)).
Proof. by move=> h1 h2 h3; field. Qed.

(* one step of the unstable mode *)
Lemma af_grow (s x y : T) :
  let x' := two *! (two *! y +! y) -! x in
  let y' := two *! x' -! y in
  [/\ s *! x +! two *! (opp (two *! (s *! y)) -! s *! y) = opp s *! x',
      opp (s *! x) +! two *! (s *! y +! two *! (s *! y)) = opp (opp s *! x') &
      O +! two *! (s *! y -! s *! y) = O] /\
  [/\ s *! y -! two *! (O -! O -! (O -! opp (opp s *! x'))) = opp s *! y',
      s *! y -! two *! (O -! opp s *! x' -! (O -! O)) = opp s *! y' &
      opp (two *! (s *! y)) -! two *! (O -! opp (opp s *! x') -! (O -! opp s *! x')) =
        opp (two *! (opp s *! y'))] /\
  (x' -! two *! y = (y -! x) +! (two *! y +! y)).
Proof.
by move=> x' y'; rewrite /y' /x'; split; [split; ring|split; [split; ring|ring]].
Qed.

(* divergence of a curl *)
Lemma af_divcurl (ix iy iz t a1 a2 a3 a4 b1 b2 b3 b4 c1 c2 c3 c4 x1 x0 y1 y0 z1 z0 : T) :
  ((x1 -! t *! ((a1 -! a2) *! iy -! (b1 -! b2) *! iz)) -!
   (x0 -! t *! ((a3 -! a4) *! iy -! (b3 -! b4) *! iz))) *! ix +!
  ((y1 -! t *! ((c1 -! c2) *! iz -! (a1 -! a3) *! ix)) -!
   (y0 -! t *! ((c3 -! c4) *! iz -! (a2 -! a4) *! ix))) *! iy +!
  ((z1 -! t *! ((b1 -! b3) *! ix -! (c1 -! c3) *! iy)) -!
   (z0 -! t *! ((b2 -! b4) *! ix -! (c2 -! c4) *! iy))) *! iz =
  (x1 -! x0) *! ix +! (y1 -! y0) *! iy +! (z1 -! z0) *! iz.
Proof. by ring. Qed.

Lemma af_divcurl2 (ix iy iz r a1 a2 a3 a4 b1 b2 b3 b4 c1 c2 c3 c4
    x1 x0 y1 y0 z1 z0 kx1 kx0 ky1 ky0 kz1 kz0 : T) :
  ((x1 +! r *! ((c1 -! c2) *! iy -! (b1 -! b2) *! iz -! kx1)) -!
   (x0 +! r *! ((c3 -! c4) *! iy -! (b3 -! b4) *! iz -! kx0))) *! ix +!
  ((y1 +! r *! ((a1 -! a2) *! iz -! (c1 -! c3) *! ix -! ky1)) -!
   (y0 +! r *! ((a3 -! a4) *! iz -! (c2 -! c4) *! ix -! ky0))) *! iy +!
  ((z1 +! r *! ((b1 -! b3) *! ix -! (a1 -! a3) *! iy -! kz1)) -!
   (z0 +! r *! ((b2 -! b4) *! ix -! (a2 -! a4) *! iy -! kz0))) *! iz =
  ((x1 -! x0) *! ix +! (y1 -! y0) *! iy +! (z1 -! z0) *! iz) -!
  r *! ((kx1 -! kx0) *! ix +! (ky1 -! ky0) *! iy +! (kz1 -! kz0) *! iz).
Proof. by ring. Qed.

Lemma af_solve (eo eps dt e e' c : T) : dt <> O -> eo <> O ->
  eo *! eps *! (e' -! e) /! dt = c -> eps *! e' = eps *! e +! dt /! eo *! c.
Proof. by move=> hd he <-; field; do !split. Qed.

Lemma af_solveH (mu dt h h' c : T) : dt <> O -> mu <> O ->
  mu *! (h' -! h) /! dt = opp c -> h' = h -! dt /! mu *! c.
Proof.
move=> hd he hc; have -> : c = opp (mu *! (h' -! h) /! dt) by rewrite hc; ring.
by field; do !split.
Qed.

End AbsField.

(* ---------------------------------------------------------------- *)
(* in-place sweeps *)
Section Sweep.
Variables (S V B : Type) (C : eqType) (f : S -> C -> S) (view : S -> C -> V)
  (bg : S -> B).
Hypothesis hb : forall s c, bg (f s c) = bg s.
Hypothesis hv : forall s c c', c' != c -> view (f s c) c' = view s c'.
Hypothesis hl : forall s s' c, bg s = bg s' -> view s c = view s' c ->
  view (f s c) c = view (f s' c) c.

Lemma sweep_gen (cs : seq C) s : uniq cs ->
  bg (foldl f s cs) = bg s /\
  forall c, view (foldl f s cs) c = if c \in cs then view (f s c) c else view s c.
Proof.
elim: cs s => [|a cs ih] s //= /andP [ha hu].
have [e1 e2] := ih (f s a) hu; split; first by rewrite e1 hb.
move=> c; rewrite e2 in_cons.
case hc: (c \in cs) => /=; last by case: eqP => [->|/eqP h] //; rewrite hv.
have hca : c != a by apply: contraNneq ha => <-.
by rewrite orbT; apply: hl; [exact: hb | rewrite hv].
Qed.
End Sweep.

Section Yee.
Variable R : realFieldType.

Lemma R_field : field_theory (0 : R) 1 +%R *%R (fun x y => x - y) -%R
  (fun x y => x / y) GRing.inv (@eq R).
Proof.
split; [split|..] => //.
- exact: add0r.
- exact: addrC.
- exact: addrA.
- exact: mul1r.
- exact: mulrC.
- exact: mulrA.
- exact: mulrDl.
- exact: subrr.
- by apply/eqP; rewrite oner_eq0.
- by move=> x /eqP h; rewrite mulVf.
Qed.

(* the same identities in R *)
Lemma r_normal (dt eo eps e c : R) : dt <> 0 -> eo <> 0 -> eps <> 0 ->
  eo * eps * ((e + dt / eo / eps * c) - e) / dt = c.
Proof. exact: (af_normal (R_field)). Qed.
Lemma r_faraday (dt u ups h c : R) : dt <> 0 -> u <> 0 -> ups <> 0 ->
  u * ups * ((h - dt / u / ups * c) - h) / dt = - c.
Proof. exact: (af_faraday (R_field)). Qed.

Definition cell := (nat * nat * nat)%type.
Definition at_ (a : arr R) (c : cell) : v3 R := a c.1.1 c.1.2 c.2.

Lemma put_same (a : arr R) i j k v : put a i j k v i j k = v.
Proof. by rewrite /put !eqxx. Qed.

Lemma put_at_other (a : arr R) i j k v (c : cell) : c != (i, j, k) ->
  at_ (put a i j k v) c = at_ a c.
Proof.
case: c => [[a' b'] c'] /=; rewrite /at_ /put /= => h.
case: ifP => // /and3P [/eqP h1 /eqP h2 /eqP h3].
by rewrite h1 h2 h3 eqxx in h.
Qed.

Lemma mem_cells a b c (x : cell) :
  reflect (interior a b c x.1.1 x.1.2 x.2) (x \in cells a b c).
Proof.
have aux n m : (m \in iota 1 (n - 1)) = (1 <= m < n)%N.
  by rewrite mem_iota; case: m n => [|m] [|n] //=; rewrite ?subn0 ?add1n ?subn1 // ltnS.
apply: (iffP allpairsP) => [[[[i j] k] /= [h hk ->]]|].
  case/allpairsP: h => [[i' j'] /= [hi hj [-> ->]]] /=.
  rewrite /interior; move: hi hj hk; rewrite !aux => hi hj hk.
  by split; last split.
case: x => [[i j] k] /= [hi [hj hk]]; exists ((i, j), k) => /=; split => //.
- by apply/allpairsP; exists (i, j) => /=; rewrite !aux.
- by rewrite aux.
Qed.

Lemma uniq_cells a b c : uniq (cells a b c).
Proof.
apply: allpairs_uniq; first (apply: allpairs_uniq; rewrite ?iota_uniq //).
- by move=> [i j] [i' j'] _ _ /= [-> ->].
- exact: iota_uniq.
- by move=> [[i j] k] [[i' j'] k'] _ _ /= [-> -> ->].
Qed.

Variable p : par R.

Definition viewE (s : state R) (c : cell) := (at_ (fE s) c, at_ (fD s) c, at_ (fJ s) c).
Definition viewH (s : state R) (c : cell) := (at_ (fH s) c, at_ (fB s) c).
Definition bgE (s : state R) := (fH s, fB s).
Definition bgH (s : state R) := (fE s, fD s, fJ s).

Definition stepE (s : state R) (c : cell) := E_cell p s c.1.1 c.1.2 c.2.
Definition stepiE (s : state R) (c : cell) := iE_cell p s c.1.1 c.1.2 c.2.
Definition stepH (s : state R) (c : cell) := H_cell p s c.1.1 c.1.2 c.2.

Ltac cases_if := repeat match goal with |- context [if ?b then _ else _] =>
  match b with context [if _ then _ else _] => fail 1 | _ => case: b end end.

Lemma stepE_bg s c : bgE (stepE s c) = bgE s.
Proof. by rewrite /stepE /E_cell; cases_if. Qed.
Lemma stepE_other s c c' : c' != c -> viewE (stepE s c) c' = viewE s c'.
Proof.
case: c => [[i j] k] h; rewrite /stepE /E_cell /=.
by cases_if; rewrite /viewE /= ?put_at_other.
Qed.
Lemma stepE_local s s' c : bgE s = bgE s' -> viewE s c = viewE s' c ->
  viewE (stepE s c) c = viewE (stepE s' c) c.
Proof.
case: c => [[i j] k] [hh _] hv; rewrite /stepE /E_cell /=.
move: (hv); rewrite /viewE /at_ /= => -[h1 h2 h3].
by cases_if; rewrite ?/normal_E_field_update ?/molecular_E_field_update
  ?/metal_E_field_update ?/pcm_E_field_update ?/pml_E_field_update /=
  ?put_same ?hh ?h1 ?h2 ?h3.
Qed.

Lemma stepiE_bg s c : bgE (stepiE s c) = bgE s.
Proof. by rewrite /stepiE /iE_cell; cases_if. Qed.
Lemma stepiE_other s c c' : c' != c -> viewE (stepiE s c) c' = viewE s c'.
Proof.
case: c => [[i j] k] h; rewrite /stepiE /iE_cell /=.
by cases_if; rewrite /viewE /= ?put_at_other.
Qed.
Lemma stepiE_local s s' c : bgE s = bgE s' -> viewE s c = viewE s' c ->
  viewE (stepiE s c) c = viewE (stepiE s' c) c.
Proof.
case: c => [[i j] k] [hh _] hv; rewrite /stepiE /iE_cell /=.
move: (hv); rewrite /viewE /at_ /= => -[h1 h2 h3].
by cases_if; rewrite ?/normal_E_field_update ?/metal_E_field_update
  ?/pcm_E_field_update ?/pml_E_field_update /= ?put_same ?hh ?h1 ?h2 ?h3.
Qed.

Lemma stepH_bg s c : bgH (stepH s c) = bgH s.
Proof. by rewrite /stepH /H_cell; cases_if. Qed.
Lemma stepH_other s c c' : c' != c -> viewH (stepH s c) c' = viewH s c'.
Proof.
case: c => [[i j] k] h; rewrite /stepH /H_cell /=.
by cases_if; rewrite /viewH /= ?put_at_other.
Qed.
Lemma stepH_local s s' c : bgH s = bgH s' -> viewH s c = viewH s' c ->
  viewH (stepH s c) c = viewH (stepH s' c) c.
Proof.
case: c => [[i j] k] [hh _ _] hv; rewrite /stepH /H_cell /=.
move: (hv); rewrite /viewH /at_ /= => -[h1 h2].
by cases_if; rewrite ?/normal_H_field_update ?/pcm_H_field_update
  ?/pml_H_field_update /= ?put_same ?hh ?h1 ?h2.
Qed.

Lemma sweepE cs s : uniq cs ->
  bgE (sweep (E_cell p) cs s) = bgE s /\
  forall c, viewE (sweep (E_cell p) cs s) c =
            if c \in cs then viewE (stepE s c) c else viewE s c.
Proof. exact: (sweep_gen stepE_bg stepE_other stepE_local). Qed.

Lemma sweepiE cs s : uniq cs ->
  bgE (sweep (iE_cell p) cs s) = bgE s /\
  forall c, viewE (sweep (iE_cell p) cs s) c =
            if c \in cs then viewE (stepiE s c) c else viewE s c.
Proof. exact: (sweep_gen stepiE_bg stepiE_other stepiE_local). Qed.

Lemma sweepH cs s : uniq cs ->
  bgH (sweep (H_cell p) cs s) = bgH s /\
  forall c, viewH (sweep (H_cell p) cs s) c =
            if c \in cs then viewH (stepH s c) c else viewH s c.
Proof. exact: (sweep_gen stepH_bg stepH_other stepH_local). Qed.

Variables (pi pj pk : nat).
Local Notation prop := (propagate p pi pj pk).
Local Notation int_ := (interior pi pj pk).

Lemma interiorP i j k : decidable (int_ i j k).
Proof. exact: (decP (mem_cells pi pj pk (i, j, k))). Qed.

Lemma prop_E s i j k : int_ i j k ->
  (fE (prop s) i j k, fD (prop s) i j k, fJ (prop s) i j k) =
  let t := E_cell p s i j k in (fE t i j k, fD t i j k, fJ t i j k).
Proof.
move=> h; rewrite /propagate.
have [hb _] := sweepH (sweep (E_cell p) (cells pi pj pk) s) (uniq_cells pi pj pk).
move: hb; rewrite /bgH => -[-> -> ->].
have [_ /(_ (i, j, k))] := sweepE s (uniq_cells pi pj pk).
by rewrite (introT (mem_cells pi pj pk (i, j, k)) h).
Qed.

Lemma prop_E_out s i j k : ~ int_ i j k ->
  (fE (prop s) i j k, fD (prop s) i j k, fJ (prop s) i j k) =
  (fE s i j k, fD s i j k, fJ s i j k).
Proof.
move=> h; rewrite /propagate.
have [hb _] := sweepH (sweep (E_cell p) (cells pi pj pk) s) (uniq_cells pi pj pk).
move: hb; rewrite /bgH => -[-> -> ->].
have [_ /(_ (i, j, k))] := sweepE s (uniq_cells pi pj pk).
by rewrite (introF (mem_cells pi pj pk (i, j, k)) h).
Qed.

(* the state the magnetic loop starts from *)
Definition mid (s s1 : state R) : state R := St (fE s1) (fH s) (fD s1) (fB s) (fJ s1).

Lemma prop_H s i j k :
  (fH (prop s) i j k, fB (prop s) i j k) =
  if (i, j, k) \in cells pi pj pk then
    let t := H_cell p (mid s (prop s)) i j k in (fH t i j k, fB t i j k)
  else (fH s i j k, fB s i j k).
Proof.
rewrite /propagate.
set t := sweep (E_cell p) (cells pi pj pk) s.
have [hb hv] := sweepH t (uniq_cells pi pj pk).
have [hE _] := sweepE s (uniq_cells pi pj pk).
have -> : mid s (sweep (H_cell p) (cells pi pj pk) t) = t.
  move: hb hE; rewrite /bgH /bgE /mid -/t => -[-> -> ->] [<- <-].
  by case: (t).
move: (hv (i, j, k)); rewrite /viewH /at_ /= => ->.
by case: ifP => // _; move: hE; rewrite /bgE -/t => -[-> ->].
Qed.

Lemma prop_H_in s i j k : int_ i j k ->
  (fH (prop s) i j k, fB (prop s) i j k) =
  let t := H_cell p (mid s (prop s)) i j k in (fH t i j k, fB t i j k).
Proof. by move=> h; rewrite prop_H (introT (mem_cells pi pj pk (i, j, k)) h). Qed.

Lemma prop_H_out s i j k : ~ int_ i j k ->
  (fH (prop s) i j k, fB (prop s) i j k) = (fH s i j k, fB s i j k).
Proof. by move=> h; rewrite prop_H (introF (mem_cells pi pj pk (i, j, k)) h). Qed.

Definition v3_eq (a b : v3 R) : Prop := [/\ vx a = vx b, vy a = vy b & vz a = vz b].

Lemma ne0 (x : R) : x <> 0 -> x != 0. Proof. by move/eqP. Qed.
Lemma two_ne : (1 + 1 : R) <> 0.
Proof. by apply/eqP; rewrite (_ : 1 + 1 = 2%:R) // pnatr_eq0. Qed.

Lemma two_over (a b : R) : a * (2%:R / b) = a / (b / 2%:R).
Proof. by rewrite invf_div. Qed.

Lemma curlH_spec H i j k :
  curlH p H i j k =
  V3 (by_ (ds_y p) (cz H) i j k - bz (dual (ds_nz p)) (cy H) i j k)
     (bz (dual (ds_nz p)) (cx H) i j k - bx (ds_x p) (cz H) i j k)
     (bx (ds_x p) (cy H) i j k - by_ (ds_y p) (cx H) i j k).
Proof. by rewrite /curlH !two_over !subn1. Qed.

Lemma curlE_spec E i j k :
  curlE p E i j k =
  V3 (fy (ds_y p) (cz E) i j k - fz (ds_nz p) (cy E) i j k)
     (fz (ds_nz p) (cx E) i j k - fx (ds_x p) (cz E) i j k)
     (fx (ds_x p) (cy E) i j k - fy (ds_y p) (cx E) i j k).
Proof. by []. Qed.

(* what a vacuum cell, a metal cell and a conductor cell receive *)
Lemma vac_E s i j k : int_ i j k -> vacuum_cell p i j k ->
  fE (prop s) i j k = fE (normal_E_field_update p s i j k) i j k.
Proof.
move=> h [h1 h2]; have := prop_E s h.
by rewrite /= /E_cell h1 h2 eqxx /= => -[].
Qed.

Lemma metal_E s i j k : int_ i j k -> metal_cell p i j k ->
  fE (prop s) i j k = fE (metal_E_field_update p s i j k) i j k /\
  fJ (prop s) i j k = fJ (metal_E_field_update p s i j k) i j k.
Proof.
move=> h [h1 h2 h3]; have := prop_E s h.
rewrite /= /E_cell (negbTE (ne0 h1)); move/eqP: h2 => /negbTE ->; move/eqP: h3 => /negbTE ->.
by rewrite !andbF /=; case: (position p i j k) => /= -[].
Qed.

Lemma cond_E s i j k : int_ i j k -> conductor_cell p i j k ->
  fE (prop s) i j k = V3 0 0 0 /\ fJ (prop s) i j k = fJ s i j k.
Proof.
move=> h [h1 h2]; have := prop_E s h.
rewrite /= /E_cell h1 h2 !pnatr_eq0 /= eqr_nat /= eqxx.
by rewrite /pcm_E_field_update /= put_same => -[].
Qed.

Lemma vac_H s i j k : int_ i j k -> vacuum_cell p i j k ->
  fH (prop s) i j k =
  fH (normal_H_field_update p (mid s (prop s)) i j k) i j k.
Proof.
move=> h [h1 h2]; have := prop_H_in s h.
by rewrite /= /H_cell h1 h2 (eqr_nat R 0 1000) /= => -[].
Qed.

Lemma metal_H s i j k : int_ i j k -> metal_cell p i j k ->
  fH (prop s) i j k =
  fH (normal_H_field_update p (mid s (prop s)) i j k) i j k.
Proof.
move=> h [h1 h2 h3]; have := prop_H_in s h.
rewrite /= /H_cell (negbTE (ne0 h1)); move/eqP: h3 => /negbTE ->.
by case: (position p i j k) => /= -[].
Qed.

Lemma cond_H s i j k : int_ i j k -> conductor_cell p i j k ->
  fH (prop s) i j k = V3 0 0 0.
Proof.
move=> h [h1 h2]; have := prop_H_in s h.
rewrite /= /H_cell h1 h2 eqxx /= /pcm_H_field_update /= put_same.
by move=> -[].
Qed.

Lemma mol_E s i j k : int_ i j k -> molecular_cell p i j k ->
  fE (prop s) i j k = fE (molecular_E_field_update p s i j k) i j k.
Proof.
move=> h [h1 h2]; have := prop_E s h.
by rewrite /= /E_cell h1 h2 pnatr_eq0 eqxx /= => -[].
Qed.

Lemma ampere_vac s i j k : int_ i j k -> vacuum_cell p i j k -> constants_ok p ->
  eps_ok p i j k ->
  ampere (eo p) (dt p) (ds_x p) (ds_y p) (ds_nz p) (epsilon p) (fE s)
    (fE (prop s)) (fH s) (no_current R) i j k.
Proof.
move=> h hv [hd he _ _] [ex ey ez].
rewrite /ampere /cx /cy /cz (vac_E s h hv) /normal_E_field_update /= put_same.
rewrite !two_over !subn1 !subr0 /bx /by_ /bz /dual /=.
by split; apply: r_normal.
Qed.

Lemma ampere_mol s i j k : int_ i j k -> molecular_cell p i j k -> constants_ok p ->
  eps_ok p i j k ->
  ampere (eo p) (dt p) (ds_x p) (ds_y p) (ds_nz p) (epsilon p) (fE s)
    (fE (prop s)) (fH s) (mean (dP p) (dP_old p)) i j k.
Proof.
move=> h hv [hd he _ _] [ex ey ez].
rewrite /ampere /cx /cy /cz (mol_E s h hv) /molecular_E_field_update /= put_same.
rewrite !two_over !subn1 /bx /by_ /bz /dual /=.
by split; apply: r_normal.
Qed.

Lemma faraday_ok s i j k : int_ i j k -> vacuum_cell p i j k \/ metal_cell p i j k ->
  constants_ok p ->
  faraday (uo p * ups p) (dt p) (ds_x p) (ds_y p) (ds_nz p) (fE (prop s)) (fH s)
    (fH (prop s)) i j k.
Proof.
move=> h hv [hd _ hu hp].
have e : fH (prop s) i j k =
  fH (normal_H_field_update p (mid s (prop s)) i j k) i j k.
  by case: hv => hv; [exact: vac_H | exact: metal_H].
rewrite /faraday /cx /cy /cz e /normal_H_field_update /= put_same /=.
by split; apply: r_faraday.
Qed.

(* the magnetic field of molecular cells *)
Lemma mol_H s i j k : int_ i j k -> molecular_cell p i j k -> constants_ok p ->
  faraday (uo p * ups p) (dt p) (ds_x p) (ds_y p) (ds_nz p) (fE (prop s)) (fH s)
    (fH (prop s)) i j k.
Proof.
move=> h [h1 h2] [hd _ hu hp]; have := prop_H_in s h.
rewrite /= /H_cell h1 h2 eqr_nat /= => -[e _].
rewrite /faraday /cx /cy /cz e /normal_H_field_update /= put_same /=.
by split; apply: r_faraday.
Qed.

(* what a metal step solves *)
Lemma metal_laws s i j k : int_ i j k -> metal_cell p i j k -> constants_ok p ->
  2%:R + mgamma p i j k * dt p <> 0 ->
  2%:R * eo p * mepsilon p i j k * (2%:R + mgamma p i j k * dt p) +
  dt p * (momega p i j k ^+ 2 * eo p * dt p) <> 0 ->
  ampere (eo p) (dt p) (ds_x p) (ds_y p) (ds_nz p)
    (fun a b c => V3 (mepsilon p a b c) (mepsilon p a b c) (mepsilon p a b c))
    (fE s) (fE (prop s)) (fH s) (mean (fJ (prop s)) (fJ s)) i j k /\
  drude (eo p) (dt p) (mgamma p i j k) (momega p i j k) (fE s) (fE (prop s))
    (fJ s) (fJ (prop s)) i j k.
Proof.
move=> h hm [hd he _ _] h2 h3; rewrite expr2 in h3.
have [eE eJ] := metal_E s h hm.
have aE := @af_metal_e _ _ _ _ _ _ _ _ _ R_field (mgamma p i j k) (dt p)
  (momega p i j k) (eo p) (mepsilon p i j k).
have aJ := @af_metal_j _ _ _ _ _ _ _ _ _ R_field (mgamma p i j k) (dt p)
  (momega p i j k) (eo p).
split.
- rewrite /ampere /mean /cx /cy /cz eE eJ /metal_E_field_update /= !put_same.
  rewrite !two_over !subn1 /bx /by_ /bz /dual /=.
  by split; apply: aE => //; exact: two_ne.
- move=> cmp hc; rewrite expr2.
  case: hc => [->|[->|->]]; rewrite /cx /cy /cz eE eJ /metal_E_field_update /= !put_same /=;
  by apply: aJ => //; exact: two_ne.
Qed.

Lemma layer_Ev s i j k : int_ i j k -> layer_cell p i j k ->
  fE (prop s) i j k = fE (pml_E_field_update p s i j k) i j k /\
  fD (prop s) i j k = fD (pml_E_field_update p s i j k) i j k.
Proof.
move=> h [h1 h2]; have := prop_E s h.
by rewrite /= /E_cell h1 h2 eqxx /= => -[].
Qed.

Lemma layer_Hv s i j k : int_ i j k -> layer_cell p i j k ->
  fH (prop s) i j k = fH (pml_H_field_update p (mid s (prop s)) i j k) i j k /\
  fB (prop s) i j k = fB (pml_H_field_update p (mid s (prop s)) i j k) i j k.
Proof.
move=> h [h1 h2]; have := prop_H_in s h.
by rewrite /= /H_cell h1 h2 eqxx /= => -[].
Qed.

Lemma den_ne (kap sig : R) : 0 < dt p -> 0 < eo p -> 0 < kap -> 0 <= sig ->
  (1 + 1) * eo p * kap + dt p * sig <> 0.
Proof.
move=> h1 h2 h3 h4; apply/eqP; rewrite lt0r_neq0 //.
by rewrite ltr_paddr ?mulr_ge0 ?mulr_gt0 ?addr_gt0 ?ltr01 // ltW.
Qed.

Lemma layer_laws s i j k : int_ i j k -> layer_cell p i j k -> layer_ok p i j k ->
  eps_ok p i j k ->
  layer_E p (fE s) (fE (prop s)) (fD s) (fD (prop s)) (fH s) i j k /\
  layer_H p (fH s) (fH (prop s)) (fB s) (fB (prop s)) (fE (prop s)) i j k.
Proof.
move=> h hl [[hd he hu hp] [[k1 k2 k3] [[s1 s2 s3] [t1 t2 t3]]]] [ex ey ez].
have nz (x : R) : 0 < x -> x <> 0 by move=> /lt0r_neq0/eqP.
have [eE eD] := layer_Ev s h hl; have [eH eB] := layer_Hv s h hl.
have D := den_ne hd he.
have n1 := nz _ hd; have n2 := nz _ he; have n3 := nz _ hu; have n4 := nz _ hp.
split; split.
- rewrite /cx /cy /cz eD /pml_E_field_update /= !put_same /=.
  rewrite !two_over !subn1 /bx /by_ /bz /dual /=.
  by split; apply: (af_pml_d R_field) => //; first [exact: two_ne | exact: D].
- rewrite /cx /cy /cz eE eD /pml_E_field_update /= !put_same /=.
  by split; apply: (af_pml_e R_field) => //; first [exact: two_ne | exact: D].
- rewrite /cx /cy /cz eB /pml_H_field_update /= !put_same /=.
  by split; apply: (af_pml_b R_field) => //; first [exact: two_ne | exact: D].
- rewrite /cx /cy /cz eH eB /pml_H_field_update /= !put_same /=.
  by split; apply: (af_pml_h R_field) => //; first [exact: two_ne | exact: D].
Qed.

Lemma divH_step s i j k :
  faraday (uo p * ups p) (dt p) (ds_x p) (ds_y p) (ds_nz p) (fE (prop s)) (fH s)
    (fH (prop s)) i j k ->
  faraday (uo p * ups p) (dt p) (ds_x p) (ds_y p) (ds_nz p) (fE (prop s)) (fH s)
    (fH (prop s)) i.+1 j k ->
  faraday (uo p * ups p) (dt p) (ds_x p) (ds_y p) (ds_nz p) (fE (prop s)) (fH s)
    (fH (prop s)) i j.+1 k ->
  faraday (uo p * ups p) (dt p) (ds_x p) (ds_y p) (ds_nz p) (fE (prop s)) (fH s)
    (fH (prop s)) i j k.+1 ->
  constants_ok p ->
  divH (ds_x p) (ds_y p) (ds_nz p) (fH (prop s)) i j k =
  divH (ds_x p) (ds_y p) (ds_nz p) (fH s) i j k.
Proof.
move=> [a1 a2 a3] [b1 _ _] [_ c2 _] [_ _ d3] [hd _ hu hp].
have hm : uo p * ups p <> 0 by apply/eqP; rewrite mulf_neq0 //; apply/eqP.
have S := af_solveH R_field hd hm.
rewrite /divH /fx /fy /fz (S _ _ _ a1) (S _ _ _ a2) (S _ _ _ a3) (S _ _ _ b1)
  (S _ _ _ c2) (S _ _ _ d3) /fx /fy /fz.
exact: (af_divcurl R_field).
Qed.

Lemma divD_step s K i j k :
  (0 < i)%N -> (0 < j)%N -> (0 < k)%N ->
  ampere (eo p) (dt p) (ds_x p) (ds_y p) (ds_nz p) (epsilon p) (fE s)
    (fE (prop s)) (fH s) K i j k ->
  ampere (eo p) (dt p) (ds_x p) (ds_y p) (ds_nz p) (epsilon p) (fE s)
    (fE (prop s)) (fH s) K i.-1 j k ->
  ampere (eo p) (dt p) (ds_x p) (ds_y p) (ds_nz p) (epsilon p) (fE s)
    (fE (prop s)) (fH s) K i j.-1 k ->
  ampere (eo p) (dt p) (ds_x p) (ds_y p) (ds_nz p) (epsilon p) (fE s)
    (fE (prop s)) (fH s) K i j k.-1 ->
  constants_ok p ->
  divD (ds_x p) (ds_y p) (ds_nz p) (epsilon p) (fE (prop s)) i j k =
  divD (ds_x p) (ds_y p) (ds_nz p) (epsilon p) (fE s) i j k -
  dt p / eo p * (bx (ds_x p) (cx K) i j k + by_ (ds_y p) (cy K) i j k +
                 bz (dual (ds_nz p)) (cz K) i j k).
Proof.
move=> hi hj hk [a1 a2 a3] [b1 _ _] [_ c2 _] [_ _ d3] [hd he _ _].
have S := af_solve R_field hd he.
rewrite /divD /bx /by_ /bz (S _ _ _ _ a1) (S _ _ _ _ a2) (S _ _ _ _ a3) (S _ _ _ _ b1)
  (S _ _ _ _ c2) (S _ _ _ _ d3) /bx /by_ /bz.
exact: (af_divcurl2 R_field).
Qed.

(* ---------------------------------------------------------------- *)
(* summation by parts over the box *)
Lemma eq_box (f g : grid R) : (forall i j k, int_ i j k -> f i j k = g i j k) ->
  box pi pj pk f = box pi pj pk g.
Proof.
move=> h; apply: eq_big_nat => i hi; apply: eq_big_nat => j hj.
by apply: eq_big_nat => k hk; apply: h; split; last split.
Qed.

Lemma boxD (f g : grid R) :
  box pi pj pk (fun i j k => f i j k + g i j k) = box pi pj pk f + box pi pj pk g.
Proof.
rewrite /box -big_split; apply: eq_bigr => i _; rewrite -big_split.
by apply: eq_bigr => j _; rewrite -big_split.
Qed.

Lemma boxN (f : grid R) : box pi pj pk (fun i j k => - f i j k) = - box pi pj pk f.
Proof.
rewrite /box -sumrN; apply: eq_bigr => i _; rewrite -sumrN.
by apply: eq_bigr => j _; rewrite -sumrN.
Qed.

Lemma boxZ a (f : grid R) : box pi pj pk (fun i j k => a * f i j k) = a * box pi pj pk f.
Proof.
rewrite /box mulr_sumr; apply: eq_bigr => i _; rewrite mulr_sumr.
by apply: eq_bigr => j _; rewrite mulr_sumr.
Qed.

Lemma box0 : box pi pj pk (fun _ _ _ => 0) = 0 :> R.
Proof. by rewrite /box big1 // => i _; rewrite big1 // => j _; rewrite big1. Qed.

Lemma box_x (f : grid R) : box pi pj pk f =
  \sum_(1 <= j < pj) \sum_(1 <= k < pk) \sum_(1 <= i < pi) f i j k.
Proof.
rewrite /box exchange_big_nat; apply: eq_bigr => j _.
by rewrite exchange_big_nat.
Qed.

Lemma box_y (f : grid R) : box pi pj pk f =
  \sum_(1 <= i < pi) \sum_(1 <= k < pk) \sum_(1 <= j < pj) f i j k.
Proof. by apply: eq_bigr => i _; rewrite exchange_big_nat. Qed.

Lemma parts1 n (f g : nat -> R) : f n = 0 -> g 0%N = 0 ->
  \sum_(1 <= i < n) f i * (g i - g i.-1) = - \sum_(1 <= i < n) g i * (f i.+1 - f i).
Proof.
move=> hf hg; apply/eqP; rewrite -subr_eq0 opprK -big_split /=.
case: n hf => [|n] hf; first by rewrite big_geq.
rewrite (eq_bigr (fun i => f i.+1 * g i - f i * g i.-1)); last first.
  move=> i _; rewrite !mulrBr [g i * f i.+1]mulrC [g i * f i]mulrC addrC.
  by rewrite addrA subrK.
rewrite (telescope_sumr (fun i => f i * g i.-1)) //.
by rewrite hf hg mul0r mulr0 subrr.
Qed.

Lemma parts_x (w : nat -> nat -> R) (f g : grid R) :
  (forall j k, f pi j k = 0) -> (forall j k, g 0%N j k = 0) ->
  box pi pj pk (fun i j k => w j k * (f i j k * (g i j k - g i.-1 j k))) =
  - box pi pj pk (fun i j k => w j k * (g i j k * (f i.+1 j k - f i j k))).
Proof.
move=> hf hg; rewrite !box_x -sumrN; apply: eq_bigr => j _; rewrite -sumrN.
apply: eq_bigr => k _; rewrite -!mulr_sumr -mulrN; congr (_ * _).
exact: (parts1 (hf j k) (hg j k)).
Qed.

Lemma parts_y (w : nat -> nat -> R) (f g : grid R) :
  (forall i k, f i pj k = 0) -> (forall i k, g i 0%N k = 0) ->
  box pi pj pk (fun i j k => w i k * (f i j k * (g i j k - g i j.-1 k))) =
  - box pi pj pk (fun i j k => w i k * (g i j k * (f i j.+1 k - f i j k))).
Proof.
move=> hf hg; rewrite !box_y -sumrN; apply: eq_bigr => i _; rewrite -sumrN.
apply: eq_bigr => k _; rewrite -!mulr_sumr -mulrN; congr (_ * _).
exact: (@parts1 pj (fun j => f i j k) (fun j => g i j k) (hf i k) (hg i k)).
Qed.

Lemma parts_z (w : nat -> nat -> R) (f g : grid R) :
  (forall i j, f i j pk = 0) -> (forall i j, g i j 0%N = 0) ->
  box pi pj pk (fun i j k => w i j * (f i j k * (g i j k - g i j k.-1))) =
  - box pi pj pk (fun i j k => w i j * (g i j k * (f i j k.+1 - f i j k))).
Proof.
move=> hf hg; rewrite /box -sumrN; apply: eq_bigr => i _; rewrite -sumrN.
apply: eq_bigr => j _; rewrite -!mulr_sumr -mulrN; congr (_ * _).
exact: (parts1 (hf i j) (hg i j)).
Qed.

(* E . curl H and H . curl E have the same total *)
Definition power_E (E H : arr R) : R :=
  box pi pj pk (fun i j k =>
    ds_x p * ds_y p *
    (dual (ds_nz p) k * (cx E i j k * vx (curlH p H i j k) +
                         cy E i j k * vy (curlH p H i j k)) +
     ds_nz p k * (cz E i j k * vz (curlH p H i j k)))).
Definition power_H (E H : arr R) : R :=
  box pi pj pk (fun i j k =>
    ds_x p * ds_y p *
    (ds_nz p k * (cx H i j k * vx (curlE p E i j k) +
                  cy H i j k * vy (curlE p E i j k)) +
     dual (ds_nz p) k * (cz H i j k * vz (curlE p E i j k)))).

Definition walls_of (E H : arr R) : Prop :=
  walls pi pj pk (St E H (no_current R) (no_current R) (no_current R)).

Lemma half_ne (k : nat) : (1 <= k < pk)%N -> spacings_ok p pk ->
  dual (ds_nz p) k <> 0.
Proof.
move=> hk [_ _ _ h]; apply/eqP; rewrite mulf_neq0 ?invr_eq0 ?pnatr_eq0 //.
by apply/eqP; exact: h.
Qed.

Lemma power_eq E H : walls_of E H -> spacings_ok p pk -> power_E E H = power_H E H.
Proof.
move=> [[wEx wEy wEz] [wHx wHy wHz]] hs; have [_ _ hz _] := hs.
rewrite /power_E /power_H.
set w := ds_x p * ds_y p; set du := dual (ds_nz p); set nz := ds_nz p.
rewrite (@eq_box _ (fun i j k =>
  w * du k * (ds_y p)^-1 * (cx E i j k * (cz H i j k - cz H i j.-1 k)) +
  (- (w * (cx E i j k * (cy H i j k - cy H i j k.-1))) +
  (w * (cy E i j k * (cx H i j k - cx H i j k.-1)) +
  (- (w * du k * (ds_x p)^-1 * (cy E i j k * (cz H i j k - cz H i.-1 j k))) +
  (w * nz k * (ds_x p)^-1 * (cz E i j k * (cy H i j k - cy H i.-1 j k)) +
   - (w * nz k * (ds_y p)^-1 * (cz E i j k * (cx H i j k - cx H i j.-1 k)))))))));
  last first.
  move=> i j k [_ [_ hk]]; rewrite curlH_spec /bx /by_ /bz -/du /=.
  by apply: (af_power_E R_field); exact: half_ne.
rewrite [in RHS](@eq_box _ (fun i j k =>
  - (w * du k * (ds_y p)^-1 * (cz H i j k * (cx E i j.+1 k - cx E i j k))) +
  (w * (cy H i j k * (cx E i j k.+1 - cx E i j k)) +
  (- (w * (cx H i j k * (cy E i j k.+1 - cy E i j k))) +
  (w * du k * (ds_x p)^-1 * (cz H i j k * (cy E i.+1 j k - cy E i j k)) +
  (- (w * nz k * (ds_x p)^-1 * (cy H i j k * (cz E i.+1 j k - cz E i j k))) +
   w * nz k * (ds_y p)^-1 * (cx H i j k * (cz E i j.+1 k - cz E i j k))))))));
  last first.
  move=> i j k [_ [_ hk]]; rewrite curlE_spec /fx /fy /fz -/nz /=.
  by apply: (af_power_H R_field); exact: hz.
rewrite !boxD !boxN.
rewrite (parts_y (fun _ k => w * du k * (ds_y p)^-1) (f := cx E) (g := cz H));
  [|by move=> i k; case: (wEy i k) |by move=> i k; case: (wHy i k)].
rewrite (parts_z (fun _ _ => w) (f := cx E) (g := cy H));
  [|by move=> i k; case: (wEz i k) |by move=> i k; case: (wHz i k)].
rewrite (parts_z (fun _ _ => w) (f := cy E) (g := cx H));
  [|by move=> i k; case: (wEz i k) |by move=> i k; case: (wHz i k)].
rewrite (parts_x (fun _ k => w * du k * (ds_x p)^-1) (f := cy E) (g := cz H));
  [|by move=> i k; case: (wEx i k) |by move=> i k; case: (wHx i k)].
rewrite (parts_x (fun _ k => w * nz k * (ds_x p)^-1) (f := cz E) (g := cy H));
  [|by move=> i k; case: (wEx i k) |by move=> i k; case: (wHx i k)].
rewrite (parts_y (fun _ k => w * nz k * (ds_y p)^-1) (f := cz E) (g := cx H));
  [|by move=> i k; case: (wEy i k) |by move=> i k; case: (wHy i k)].
by rewrite !opprK.
Qed.

Lemma not_int_hi i j k : (i = pi \/ j = pj \/ k = pk) -> ~ int_ i j k.
Proof.
by move=> h [/andP [_ h1] [/andP [_ h2] /andP [_ h3]]];
   case: h => [h|[h|h]]; move: h1 h2 h3; rewrite h ?ltnn.
Qed.
Lemma not_int_lo i j k : (i = 0 \/ j = 0 \/ k = 0)%N -> ~ int_ i j k.
Proof.
by move=> h [/andP [h1 _] [/andP [h2 _] /andP [h3 _]]];
   case: h => [h|[h|h]]; move: h1 h2 h3; rewrite h.
Qed.

Lemma walls_prop s : walls pi pj pk s -> walls pi pj pk (prop s).
Proof.
move=> [[a b c] [d e f]].
have oE i j k : (i = pi \/ j = pj \/ k = pk) -> fE (prop s) i j k = fE s i j k.
  by move=> /not_int_hi h; have := prop_E_out s h; case.
have oH i j k : (i = 0 \/ j = 0 \/ k = 0)%N -> fH (prop s) i j k = fH s i j k.
  by move=> /not_int_lo h; have := prop_H_out s h; case.
split; split; move=> x y; rewrite /cx /cy /cz ?oE ?oH; try (by auto).
- exact: a. - exact: b. - exact: c. - exact: d. - exact: e. - exact: f.
Qed.

Lemma good_prop s i j k : int_ i j k -> good_cell p s i j k -> good_cell p (prop s) i j k.
Proof.
move=> h [g|[g|[g _]]]; [by left|by right; left|right; right].
split => //; split; [by case: (cond_E s h g) | exact: cond_H].
Qed.

Definition is_cmp (cmp : arr R -> grid R) (pr : v3 R -> R) : Prop :=
  (forall a i j k, cmp a i j k = pr (a i j k)) /\
  (pr = @vx R \/ pr = @vy R \/ pr = @vz R).

Lemma cell_u s i j k cmp pr : is_cmp cmp pr -> int_ i j k -> good_cell p s i j k ->
  constants_ok p ->
  uE p (fE (prop s)) (fJ (prop s)) i j k cmp - uE p (fE s) (fJ s) i j k cmp +
  heat1 p (fJ s) (fJ (prop s)) i j k cmp =
  dt p * ((cmp (fE (prop s)) i j k + cmp (fE s) i j k) * pr (curlH p (fH s) i j k)).
Proof.
move=> [hc hp] h g hk; have [hd he hu hps] := hk.
rewrite /uE /heat1.
case: g => [[v e]|[[m [g1 g2 g3]]|[g [e0 h0]]]].
- have [_ m0] := v; rewrite m0 eqxx /= addr0 !expr2.
  rewrite [(_ + _) * pr _]mulrC [dt p * (pr _ * _)]mulrA.
  have [a1 a2 a3] := ampere_vac s h v hk e.
  apply: (af_normal_energy R_field) => //.
  rewrite curlH_spec !hc; case: hp => [->|[->|->]] /=;
  [move: a1|move: a2|move: a3]; rewrite /cx /cy /cz /= => ->; exact: subr0.
- have [m1 m2 m3] := m.
  rewrite (negbTE (ne0 m1)); move/eqP: (m3) => /negbTE -> /=.
  have [[a1 a2 a3] dr] := metal_laws s h m hk g2 g3.
  rewrite !expr2 in dr *.
  rewrite [(_ + _) * pr _]mulrC [dt p * (pr _ * _)]mulrA.
  apply: (af_metal_energy R_field) => //; first exact: two_ne.
  + by rewrite curlH_spec !hc; case: hp => [->|[->|->]] /=; [exact: a1|exact: a2|exact: a3].
  + rewrite !hc; case: hp => [->|[->|->]];
    [have := dr (@cx R)|have := dr (@cy R)|have := dr (@cz R)];
    by rewrite expr2; apply; auto.
- have [m0 m1] := g; rewrite m1 pnatr_eq0 /= eqxx /= subrr add0r.
  rewrite !hc e0 (proj1 (cond_E s h g)).
  by case: hp => [->|[->|->]] /=; rewrite addr0 mul0r mulr0.
Qed.

Lemma cell_h s i j k cmp pr : is_cmp cmp pr -> int_ i j k -> good_cell p s i j k ->
  constants_ok p ->
  uo p * ups p * (cmp (fH (prop s)) i j k * cmp (fH (prop (prop s))) i j k) -
  uo p * ups p * (cmp (fH s) i j k * cmp (fH (prop s)) i j k) =
  - (dt p * (cmp (fH (prop s)) i j k *
       (pr (curlE p (fE (prop (prop s))) i j k) + pr (curlE p (fE (prop s)) i j k)))).
Proof.
move=> [hc hp] h g hk; have [hd _ _ _] := hk.
have reg : vacuum_cell p i j k \/ metal_cell p i j k ->
  uo p * ups p * (cmp (fH (prop s)) i j k * cmp (fH (prop (prop s))) i j k) -
  uo p * ups p * (cmp (fH s) i j k * cmp (fH (prop s)) i j k) =
  - (dt p * (cmp (fH (prop s)) i j k *
       (pr (curlE p (fE (prop (prop s))) i j k) + pr (curlE p (fE (prop s)) i j k)))).
  move=> v; have [a1 a2 a3] := faraday_ok s h v hk.
  have [b1 b2 b3] := faraday_ok (prop s) h v hk.
  apply: (af_h R_field) => //; rewrite !hc; case: hp => [->|[->|->]];
    first [exact: a1|exact: a2|exact: a3|exact: b1|exact: b2|exact: b3].
case: g => [[v _]|[[m _]|[g [e0 h0]]]]; [by apply: reg; left|by apply: reg; right|].
rewrite !hc (cond_H s h g).
by case: hp => [->|[->|->]] /=; rewrite !(mul0r, mulr0) subrr oppr0.
Qed.

(* the energy balance of one time step *)
Lemma energy_balance s :
  walls pi pj pk s -> (forall i j k, int_ i j k -> good_cell p s i j k) ->
  constants_ok p -> spacings_ok p pk ->
  energy p pi pj pk (fE (prop (prop s))) (fJ (prop (prop s))) (fH (prop s))
    (fH (prop (prop s))) +
  heat p pi pj pk (fJ (prop s)) (fJ (prop (prop s))) =
  energy p pi pj pk (fE (prop s)) (fJ (prop s)) (fH s) (fH (prop s)).
Proof.
move=> hw hg hk hs.
set s1 := prop s; set s2 := prop s1.
pose S : arr R := fun i j k => V3 (cx (fE s2) i j k + cx (fE s1) i j k)
  (cy (fE s2) i j k + cy (fE s1) i j k) (cz (fE s2) i j k + cz (fE s1) i j k).
have w1 := walls_prop hw; have w2 := walls_prop w1.
have wS : walls_of S (fH s1).
  move: w1 w2 => [[a b c] [d e f]] [[a' b' c'] _]; split; split => //= x y;
  rewrite /cx /cy /cz /=.
  - by case: (a x y) => A1 A2; case: (a' x y) => B1 B2; split;
      [rewrite [X in X + _]B1 [X in _ + X]A1 | rewrite [X in X + _]B2 [X in _ + X]A2]; rewrite addr0.
  - by case: (b x y) => A1 A2; case: (b' x y) => B1 B2; split;
      [rewrite [X in X + _]B1 [X in _ + X]A1 | rewrite [X in X + _]B2 [X in _ + X]A2]; rewrite addr0.
  - by case: (c x y) => A1 A2; case: (c' x y) => B1 B2; split;
      [rewrite [X in X + _]B1 [X in _ + X]A1 | rewrite [X in X + _]B2 [X in _ + X]A2]; rewrite addr0.
have cxP : is_cmp (@cx R) (@vx R) by split; auto.
have cyP : is_cmp (@cy R) (@vy R) by split; auto.
have czP : is_cmp (@cz R) (@vz R) by split; auto.
rewrite /energy /heat -boxD.
transitivity (energy p pi pj pk (fE s1) (fJ s1) (fH s) (fH s1) +
  (dt p * power_E S (fH s1) - dt p * power_H S (fH s1))); last first.
  by rewrite (power_eq wS hs) subrr addr0.
rewrite /energy /power_E /power_H -!boxZ -boxN -!boxD.
apply: eq_box => i j k h.
have g := hg i j k h; have g1 := good_prop h g.
have ucurl (pr : v3 R -> R) : pr = @vx R \/ pr = @vy R \/ pr = @vz R ->
  pr (curlE p S i j k) = pr (curlE p (fE s2) i j k) + pr (curlE p (fE s1) i j k).
  by case=> [->|[->|->]]; exact: (af_curl_add R_field).
apply: (af_cell R_field).
- exact: (cell_u cxP h g1 hk).
- exact: (cell_u cyP h g1 hk).
- exact: (cell_u czP h g1 hk).
- by rewrite ucurl; [exact: (cell_h cxP h g hk)|auto].
- by rewrite ucurl; [exact: (cell_h cyP h g hk)|auto].
- by rewrite ucurl; [exact: (cell_h czP h g hk)|auto].
Qed.

(* ---------------------------------------------------------------- *)
(* stability on a uniform grid *)
Local Notation normsq := (normsq pi pj pk).

Lemma le_box (f g : grid R) : (forall i j k, int_ i j k -> f i j k <= g i j k) ->
  box pi pj pk f <= box pi pj pk g.
Proof.
move=> h; rewrite /box !big_nat; apply: ler_sum => i hi.
rewrite !big_nat; apply: ler_sum => j hj; rewrite !big_nat; apply: ler_sum => k hk.
by apply: h; split; last split.
Qed.

Lemma box_ge0 (f : grid R) : (forall i j k, 0 <= f i j k) -> 0 <= box pi pj pk f.
Proof. by move=> h; rewrite -box0; apply: le_box => *; exact: h. Qed.

Lemma shift1 n (g : nat -> R) : (forall i, 0 <= g i) -> g n = 0 ->
  \sum_(1 <= i < n) g i.+1 <= \sum_(1 <= i < n) g i.
Proof.
move=> hg hn; case: n hn => [|[|n]] hn; try by rewrite !big_geq.
have -> : \sum_(1 <= i < n.+2) g i.+1 = \sum_(2 <= i < n.+3) g i by rewrite [RHS]big_add1.
rewrite [X in X <= _]big_nat_recr //= hn addr0.
rewrite [X in _ <= X]big_ltn // ler_addr; exact: hg.
Qed.

Lemma shift_x (f : grid R) : (forall j k, f pi j k = 0) ->
  box pi pj pk (fun i j k => f i.+1 j k ^+ 2) <= box pi pj pk (fun i j k => f i j k ^+ 2).
Proof.
move=> h; rewrite !box_x; apply: ler_sum => j _; apply: ler_sum => k _.
apply: (@shift1 pi (fun i => f i j k ^+ 2)) => [i|]; first exact: sqr_ge0.
by rewrite h expr0n.
Qed.
Lemma shift_y (f : grid R) : (forall i k, f i pj k = 0) ->
  box pi pj pk (fun i j k => f i j.+1 k ^+ 2) <= box pi pj pk (fun i j k => f i j k ^+ 2).
Proof.
move=> h; rewrite !box_y; apply: ler_sum => i _; apply: ler_sum => k _.
apply: (@shift1 pj (fun j => f i j k ^+ 2)) => [j|]; first exact: sqr_ge0.
by rewrite h expr0n.
Qed.
Lemma shift_z (f : grid R) : (forall i j, f i j pk = 0) ->
  box pi pj pk (fun i j k => f i j k.+1 ^+ 2) <= box pi pj pk (fun i j k => f i j k ^+ 2).
Proof.
move=> h; apply: ler_sum => i _; apply: ler_sum => j _.
apply: (@shift1 pk (fun k => f i j k ^+ 2)) => [k|]; first exact: sqr_ge0.
by rewrite h expr0n.
Qed.

Lemma sqB_le (u v : R) : (u - v) ^+ 2 <= 2%:R * (u ^+ 2 + v ^+ 2).
Proof.
rewrite -subr_ge0 (_ : _ - _ = (u + v) ^+ 2) ?sqr_ge0 // !expr2.
exact: (af_sqB R_field).
Qed.

Definition ip (f g : grid R) : R := box pi pj pk (fun i j k => f i j k * g i j k).

Lemma ip_sq2 (c d : R) (f g : grid R) :
  box pi pj pk (fun i j k => (c * f i j k - d * g i j k) ^+ 2) =
  c * c * ip f f + (d * d * ip g g - 2%:R * (c * d) * ip f g).
Proof.
rewrite /ip -!boxZ -boxN -!boxD; apply: eq_box => i j k _; rewrite expr2.
exact: (af_sq2 R_field).
Qed.
Lemma ip_sq3 (c d e : R) (f g h : grid R) :
  box pi pj pk (fun i j k => (c * f i j k + d * g i j k + e * h i j k) ^+ 2) =
  c * c * ip f f + (d * d * ip g g + (e * e * ip h h +
  (2%:R * (c * d) * ip f g + (2%:R * (d * e) * ip g h + 2%:R * (e * c) * ip h f)))).
Proof.
rewrite /ip -!boxZ -!boxD; apply: eq_box => i j k _; rewrite expr2.
exact: (af_sq3 R_field).
Qed.

(* differences of grids that vanish outside the box *)
Definition ux (f : grid R) : grid R := fun i j k => f i.+1 j k - f i j k.
Definition uy (f : grid R) : grid R := fun i j k => f i j.+1 k - f i j k.
Definition uz (f : grid R) : grid R := fun i j k => f i j k.+1 - f i j k.
Definition lx (f : grid R) : grid R := fun i j k => f i j k - f i.-1 j k.
Definition ly (f : grid R) : grid R := fun i j k => f i j k - f i j.-1 k.
Definition lz (f : grid R) : grid R := fun i j k => f i j k - f i j k.-1.
Definition inside (f : grid R) : Prop := forall i j k, ~ int_ i j k -> f i j k = 0.

Lemma ins_hi f i j k : inside f -> (i = pi \/ j = pj \/ k = pk) -> f i j k = 0.
Proof. by move=> h c; apply: h; exact: not_int_hi. Qed.
Lemma ins_lo f i j k : inside f -> (i = 0 \/ j = 0 \/ k = 0)%N -> f i j k = 0.
Proof. by move=> h c; apply: h; exact: not_int_lo. Qed.

Lemma ip_C (f g : grid R) : ip f g = ip g f.
Proof. by apply: eq_box => i j k _; rewrite mulrC. Qed.

Lemma px (f g : grid R) : (forall j k, f pi j k = 0) -> (forall j k, g 0%N j k = 0) ->
  ip f (lx g) = - ip g (ux f).
Proof.
move=> hf hg; have := @parts_x (fun _ _ => 1) f g hf hg.
rewrite (@eq_box _ (fun i j k => f i j k * lx g i j k)); last by move=> i j k _; rewrite mul1r.
by rewrite (@eq_box (fun i j k => 1 * (g i j k * _)) (fun i j k => g i j k * ux f i j k));
  last by move=> i j k _; rewrite mul1r.
Qed.
Lemma py (f g : grid R) : (forall i k, f i pj k = 0) -> (forall i k, g i 0%N k = 0) ->
  ip f (ly g) = - ip g (uy f).
Proof.
move=> hf hg; have := @parts_y (fun _ _ => 1) f g hf hg.
rewrite (@eq_box _ (fun i j k => f i j k * ly g i j k)); last by move=> i j k _; rewrite mul1r.
by rewrite (@eq_box (fun i j k => 1 * (g i j k * _)) (fun i j k => g i j k * uy f i j k));
  last by move=> i j k _; rewrite mul1r.
Qed.
Lemma pz (f g : grid R) : (forall i j, f i j pk = 0) -> (forall i j, g i j 0%N = 0) ->
  ip f (lz g) = - ip g (uz f).
Proof.
move=> hf hg; have := @parts_z (fun _ _ => 1) f g hf hg.
rewrite (@eq_box _ (fun i j k => f i j k * lz g i j k)); last by move=> i j k _; rewrite mul1r.
by rewrite (@eq_box (fun i j k => 1 * (g i j k * _)) (fun i j k => g i j k * uz f i j k));
  last by move=> i j k _; rewrite mul1r.
Qed.

Lemma subACA (a b c d : R) : (a - b) - (c - d) = (a - c) - (b - d).
Proof. by rewrite !opprB [d - c]addrC [d - b]addrC addrACA. Qed.

(* the cross terms of the squared curl are those of the squared divergence *)
Lemma cross_yz (f g : grid R) : inside f -> inside g -> ip (uy f) (uz g) = ip (ly g) (lz f).
Proof.
move=> hf hg.
have e1 : ip f (ly (uz g)) = - ip (uz g) (uy f).
  apply: py => [i k|i k]; first by apply: ins_hi => //; auto.
  by rewrite /uz !(ins_lo hg) ?subrr; auto.
have e2 : ip (ly g) (lz f) = - ip f (uz (ly g)).
  apply: pz => [i j|i j]; last by apply: ins_lo => //; auto.
  by rewrite /ly !(ins_hi hg) ?subrr; auto.
rewrite ip_C -[LHS]opprK -e1 e2; congr (- _); apply: eq_box => i j k _; congr (_ * _).
by rewrite /ly /uz subACA.
Qed.
Lemma cross_zx (f g : grid R) : inside f -> inside g -> ip (uz f) (ux g) = ip (lz g) (lx f).
Proof.
move=> hf hg.
have e1 : ip f (lz (ux g)) = - ip (ux g) (uz f).
  apply: pz => [i j|i j]; first by apply: ins_hi => //; auto.
  by rewrite /ux !(ins_lo hg) ?subrr; auto.
have e2 : ip (lz g) (lx f) = - ip f (ux (lz g)).
  apply: px => [j k|j k]; last by apply: ins_lo => //; auto.
  by rewrite /lz !(ins_hi hg) ?subrr; auto.
rewrite ip_C -[LHS]opprK -e1 e2; congr (- _); apply: eq_box => i j k _; congr (_ * _).
by rewrite /lz /ux subACA.
Qed.
Lemma cross_xy (f g : grid R) : inside f -> inside g -> ip (ux f) (uy g) = ip (lx g) (ly f).
Proof.
move=> hf hg.
have e1 : ip f (lx (uy g)) = - ip (uy g) (ux f).
  apply: px => [j k|j k]; first by apply: ins_hi => //; auto.
  by rewrite /uy !(ins_lo hg) ?subrr; auto.
have e2 : ip (lx g) (ly f) = - ip f (uy (lx g)).
  apply: py => [i k|i k]; last by apply: ins_lo => //; auto.
  by rewrite /lx !(ins_hi hg) ?subrr; auto.
rewrite ip_C -[LHS]opprK -e1 e2; congr (- _); apply: eq_box => i j k _; congr (_ * _).
by rewrite /lx /uy subACA.
Qed.

(* a difference has at most four times the squared norm *)
Lemma shift0 n (g : nat -> R) : (forall i, 0 <= g i) -> g 0%N = 0 ->
  \sum_(1 <= i < n) g i.-1 <= \sum_(1 <= i < n) g i.
Proof.
move=> hg h0; case: n => [|n]; first by rewrite !big_geq.
rewrite big_add1 /=; case: n => [|n]; first by rewrite !big_geq.
rewrite [X in X <= _]big_ltn // h0 add0r [X in _ <= X]big_nat_recr //= ler_addl.
exact: hg.
Qed.

Lemma four_le (f d : grid R) :
  (forall i j k, f i j k = f i j k) ->
  box pi pj pk (fun i j k => (f i j k + d i j k) ^+ 2) <= ip f f ->
  ip d d <= 4%:R * ip f f.
Proof.
move=> _ h.
have e4 : 4%:R = 2%:R + 2%:R :> R by rewrite -natrD.
apply: (@le_trans _ _ (2%:R * (box pi pj pk (fun i j k => (f i j k + d i j k) ^+ 2) + ip f f))).
  rewrite /ip -boxD -boxZ; apply: le_box => i j k _.
  have := sqB_le (f i j k + d i j k) (f i j k).
  by rewrite [f i j k + _]addrC addrK !expr2.
rewrite e4 mulrDl mulrDr ler_add2r.
by rewrite ler_wpmul2l ?ler0n.
Qed.

Lemma box_sq_ip (f : grid R) : box pi pj pk (fun i j k => f i j k ^+ 2) = ip f f.
Proof. by apply: eq_box => i j k _; rewrite expr2. Qed.

Lemma ux_le f : inside f -> ip (ux f) (ux f) <= 4%:R * ip f f.
Proof.
move=> h; apply: four_le => //; rewrite -[X in _ <= X]box_sq_ip.
apply: le_trans (shift_x _); last by move=> j k; apply: ins_hi => //; auto.
by apply: le_box => i j k _; rewrite /ux addrC subrK.
Qed.
Lemma uy_le f : inside f -> ip (uy f) (uy f) <= 4%:R * ip f f.
Proof.
move=> h; apply: four_le => //; rewrite -[X in _ <= X]box_sq_ip.
apply: le_trans (shift_y _); last by move=> i k; apply: ins_hi => //; auto.
by apply: le_box => i j k _; rewrite /uy addrC subrK.
Qed.
Lemma uz_le f : inside f -> ip (uz f) (uz f) <= 4%:R * ip f f.
Proof.
move=> h; apply: four_le => //; rewrite -[X in _ <= X]box_sq_ip.
apply: le_trans (shift_z _); last by move=> i j; apply: ins_hi => //; auto.
by apply: le_box => i j k _; rewrite /uz addrC subrK.
Qed.

Lemma ip_opp (f : grid R) : ip (fun i j k => - f i j k) (fun i j k => - f i j k) = ip f f.
Proof. by apply: eq_box => i j k _; rewrite mulrNN. Qed.
Lemma lx_le f : inside f -> ip (lx f) (lx f) <= 4%:R * ip f f.
Proof.
move=> h; rewrite -(ip_opp (lx f)); apply: four_le => //; rewrite -[X in _ <= X]box_sq_ip.
rewrite !box_x; apply: ler_sum => j _; apply: ler_sum => k _.
apply: (@le_trans _ _ (\sum_(1 <= i < pi) (fun i => f i j k ^+ 2) i.-1)).
  by apply: ler_sum => i _; rewrite /lx opprB addrC subrK.
apply: shift0 => [i|]; first exact: sqr_ge0.
by rewrite (ins_lo h) ?expr0n //; auto.
Qed.
Lemma ly_le f : inside f -> ip (ly f) (ly f) <= 4%:R * ip f f.
Proof.
move=> h; rewrite -(ip_opp (ly f)); apply: four_le => //; rewrite -[X in _ <= X]box_sq_ip.
rewrite !box_y; apply: ler_sum => i _; apply: ler_sum => k _.
apply: (@le_trans _ _ (\sum_(1 <= j < pj) (fun j => f i j k ^+ 2) j.-1)).
  by apply: ler_sum => j _; rewrite /ly opprB addrC subrK.
apply: shift0 => [j|]; first exact: sqr_ge0.
by rewrite (ins_lo h) ?expr0n //; auto.
Qed.
Lemma lz_le f : inside f -> ip (lz f) (lz f) <= 4%:R * ip f f.
Proof.
move=> h; rewrite -(ip_opp (lz f)); apply: four_le => //; rewrite -[X in _ <= X]box_sq_ip.
apply: ler_sum => i _; apply: ler_sum => j _.
apply: (@le_trans _ _ (\sum_(1 <= k < pk) (fun k => f i j k ^+ 2) k.-1)).
  by apply: ler_sum => k _; rewrite /lz opprB addrC subrK.
apply: shift0 => [k|]; first exact: sqr_ge0.
by rewrite (ins_lo h) ?expr0n //; auto.
Qed.

(* the squared norm of the curl, sharp *)
Lemma curl_grids (X Y Z : grid R) (x y z : R) : inside X -> inside Y -> inside Z ->
  box pi pj pk (fun i j k => (y * uy Z i j k - z * uz Y i j k) ^+ 2) +
  box pi pj pk (fun i j k => (z * uz X i j k - x * ux Z i j k) ^+ 2) +
  box pi pj pk (fun i j k => (x * ux Y i j k - y * uy X i j k) ^+ 2) <=
  4%:R * (x * x + y * y + z * z) * (ip X X + ip Y Y + ip Z Z).
Proof.
move=> hX hY hZ; rewrite !ip_sq2 (cross_yz hZ hY) (cross_zx hX hZ) (cross_xy hY hX).
have q0 : 0 <= box pi pj pk (fun i j k =>
    (x * lx X i j k + y * ly Y i j k + z * lz Z i j k) ^+ 2).
  by apply: box_ge0 => *; exact: sqr_ge0.
apply: (le_trans (ler_paddr q0 (lexx _))).
rewrite ip_sq3 (af_sharp R_field).
have sq0 (a : R) : 0 <= a * a by rewrite -expr2 sqr_ge0.
have e4 : 4%:R * (x * x + y * y + z * z) * (ip X X + ip Y Y + ip Z Z) =
  x * x * (4%:R * ip X X + 4%:R * ip Y Y + 4%:R * ip Z Z) +
  y * y * (4%:R * ip X X + 4%:R * ip Y Y + 4%:R * ip Z Z) +
  z * z * (4%:R * ip X X + 4%:R * ip Y Y + 4%:R * ip Z Z).
  by rewrite -!mulrDl -!mulrDr mulrCA !mulrA [4%:R * _]mulrC.
rewrite e4; apply: ler_add; [apply: ler_add|];
  by apply: ler_wpmul2l => //; apply: ler_add; [apply: ler_add|];
     first [exact: lx_le|exact: ly_le|exact: lz_le|exact: ux_le|exact: uy_le|exact: uz_le].
Qed.

Definition mask (f : grid R) : grid R := fun i j k =>
  if (i, j, k) \in cells pi pj pk then f i j k else 0.
Lemma mask_in f i j k : int_ i j k -> mask f i j k = f i j k.
Proof. by move=> h; rewrite /mask (introT (mem_cells pi pj pk (i, j, k)) h). Qed.
Lemma mask_out f : inside (mask f).
Proof. by move=> i j k h; rewrite /mask (introF (mem_cells pi pj pk (i, j, k)) h). Qed.
Lemma mask_x f i j k : (forall j k, f pi j k = 0) -> int_ i j k ->
  mask f i.+1 j k = f i.+1 j k.
Proof.
move=> hf h; have [h1 [h2 h3]] := h.
case: (ltnP i.+1 pi) => hi; first by apply: mask_in; split => //; rewrite hi.
have -> : i.+1 = pi by apply/eqP; rewrite eqn_leq hi andbT; case/andP: h1.
by rewrite hf (ins_hi (@mask_out f)) //; auto.
Qed.
Lemma mask_y f i j k : (forall i k, f i pj k = 0) -> int_ i j k ->
  mask f i j.+1 k = f i j.+1 k.
Proof.
move=> hf h; have [h1 [h2 h3]] := h.
case: (ltnP j.+1 pj) => hj; first by apply: mask_in; split => //; split=> //; rewrite hj.
have -> : j.+1 = pj by apply/eqP; rewrite eqn_leq hj andbT; case/andP: h2.
by rewrite hf (ins_hi (@mask_out f)) //; auto.
Qed.
Lemma mask_z f i j k : (forall i j, f i j pk = 0) -> int_ i j k ->
  mask f i j k.+1 = f i j k.+1.
Proof.
move=> hf h; have [h1 [h2 h3]] := h.
case: (ltnP k.+1 pk) => hk; first by apply: mask_in; split => //; split=> //; rewrite hk.
have -> : k.+1 = pk by apply/eqP; rewrite eqn_leq hk andbT; case/andP: h3.
by rewrite hf (ins_hi (@mask_out f)) //; auto.
Qed.

Lemma curl_le E dz :
  [/\ (forall j k, cy E pi j k = 0 /\ cz E pi j k = 0),
      (forall i k, cx E i pj k = 0 /\ cz E i pj k = 0) &
      (forall i j, cx E i j pk = 0 /\ cy E i j pk = 0)] ->
  (forall k, (1 <= k < pk)%N -> ds_nz p k = dz) ->
  normsq (curlE p E) <= 4%:R * invsq (ds_x p) (ds_y p) dz * normsq E.
Proof.
move=> [wx wy wz] hz; rewrite /YeeSpec.normsq !boxD.
have wyx i j : cy E pi i j = 0 by case: (wx i j).
have wzx i j : cz E pi i j = 0 by case: (wx i j).
have wxy i j : cx E i pj j = 0 by case: (wy i j).
have wzy i j : cz E i pj j = 0 by case: (wy i j).
have wxz i j : cx E i j pk = 0 by case: (wz i j).
have wyz i j : cy E i j pk = 0 by case: (wz i j).
have m2 f : ip (mask f) (mask f) = box pi pj pk (fun i j k => f i j k ^+ 2).
  by rewrite -box_sq_ip; apply: eq_box => i j k h; rewrite mask_in.
have := @curl_grids (mask (cx E)) (mask (cy E)) (mask (cz E))
  (ds_x p)^-1 (ds_y p)^-1 dz^-1 (@mask_out _) (@mask_out _) (@mask_out _).
rewrite !m2 /invsq -!expr2 !exprVn.
move=> hl; apply: (le_trans _ hl); rewrite le_eqVlt; apply/orP; left; apply/eqP.
congr (_ + _ + _); apply: eq_box => i j k h; congr (_ ^+ 2).
- rewrite /cx curlE_spec /= /fy /fz hz; last by case: h => [_ []].
  by rewrite /uy /uz mask_y // mask_z // !mask_in // ![_^-1 * _]mulrC.
- rewrite /cy curlE_spec /= /fx /fz hz; last by case: h => [_ []].
  by rewrite /ux /uz mask_x // mask_z // !mask_in // ![_^-1 * _]mulrC.
- rewrite /cz curlE_spec /= /fx /fy.
  by rewrite /ux /uy mask_x // mask_y // !mask_in // ![_^-1 * _]mulrC.
Qed.

Local Notation mu := (uo p * ups p).

(* H . H' from below *)
Lemma hh_low (a b t : R) : a * (a + t * b) = (a + t * b / 2%:R) ^+ 2 - t ^+ 2 * b ^+ 2 / 4%:R.
Proof.
have e4 : 4%:R = (1 + 1) * (1 + 1) :> R by rewrite -(natrM R 2 2).
rewrite e4 !expr2; apply: (af_hh R_field two_ne).
by apply/eqP; rewrite mulf_neq0 //; apply/eqP; exact: two_ne.
Qed.

Lemma sq_le (a c : R) : a ^+ 2 <= 2%:R * ((a + c) ^+ 2 + c ^+ 2).
Proof. by have := sqB_le (a + c) c; rewrite addrK. Qed.

Lemma dielectric_ok dz em : dielectric p pi pj pk dz em ->
  constants_ok p /\ spacings_ok p pk /\
  (forall s i j k, int_ i j k -> good_cell p s i j k) /\
  (forall k, (1 <= k < pk)%N -> ds_nz p k = dz /\ dual (ds_nz p) k = dz).
Proof.
move=> [[h1 h2 h3 h4] [[x0 y0 z0 hz] [e0 hc]]].
have nz (x : R) : 0 < x -> x <> 0 by move=> /lt0r_neq0/eqP.
have hk k : (1 <= k < pk)%N -> ds_nz p k = dz /\ ds_nz p k.-1 = dz.
  case/andP=> ha hb; split; apply: hz => //.
  by apply: leq_ltn_trans hb; exact: leq_pred.
split; first by split; exact: nz.
split.
  split; [exact: nz|exact: nz| |] => k /hk [e1 e2]; rewrite ?e1 ?e2; first exact: nz.
  by apply: nz; rewrite addr_gt0.
split.
  move=> s i j k /hc [v [a b c]]; left; split => //.
  by split; apply: nz; [apply: lt_le_trans a|apply: lt_le_trans b|apply: lt_le_trans c].
move=> k /hk [e1 e2]; split => //; rewrite /dual e1 e2.
by rewrite -[dz + dz]mulr2n -[dz *+ 2]mulr_natr mulfK ?pnatr_eq0.
Qed.

Lemma sq_le2 (t a c : R) :
  a ^+ 2 <= 2%:R * ((a + t * c / 2%:R) ^+ 2 + t ^+ 2 / 4%:R * c ^+ 2).
Proof.
have -> : t ^+ 2 / 4%:R * c ^+ 2 = (t * c / 2%:R) ^+ 2.
  by rewrite expr_div_n exprMn -natrX mulrAC.
exact: sq_le.
Qed.

Section Stable.
Variables dz em : R.
Hypothesis hdi : dielectric p pi pj pk dz em.
Let v := ds_x p * ds_y p * dz.
Let t := dt p / mu.

Definition ueps (E : arr R) : R := box pi pj pk (fun i j k =>
  eo p * (vx (epsilon p i j k) * cx E i j k ^+ 2 + vy (epsilon p i j k) * cy E i j k ^+ 2 +
          vz (epsilon p i j k) * cz E i j k ^+ 2)).

Definition Gsum (h c : arr R) : R := box pi pj pk (fun i j k =>
  (cx h i j k + t * cx c i j k / 2%:R) ^+ 2 + (cy h i j k + t * cy c i j k / 2%:R) ^+ 2 +
  (cz h i j k + t * cz c i j k / 2%:R) ^+ 2).

Lemma mu_gt0 : 0 < mu.
Proof. by case: hdi => [[_ _ h3 h4] _]; rewrite mulr_gt0. Qed.
Lemma v_gt0 : 0 < v.
Proof. by case: hdi => [_ [[a b c _] _]]; rewrite !mulr_gt0. Qed.

Lemma back_H s i j k cmp pr : is_cmp cmp pr -> int_ i j k ->
  cmp (fH s) i j k = cmp (fH (prop s)) i j k + t * pr (curlE p (fE (prop s)) i j k).
Proof.
move=> [hc hp] h; have [hk _] := dielectric_ok hdi.
have [_ [_ [_ hv]]] := hdi; have [v0 _] := hv _ _ _ h.
have [a1 a2 a3] := faraday_ok s h (or_introl v0) hk.
have hd : dt p <> 0 by case: hk.
have hm : mu <> 0 by apply/eqP; rewrite lt0r_neq0 // mu_gt0.
have S := af_solveH R_field hd hm.
rewrite !hc; case: hp => [->|[->|->]].
- by rewrite [vx (fH (prop s) i j k)](S _ _ _ a1) subrK.
- by rewrite [vy (fH (prop s) i j k)](S _ _ _ a2) subrK.
- by rewrite [vz (fH (prop s) i j k)](S _ _ _ a3) subrK.
Qed.

Lemma energy_split s :
  energy p pi pj pk (fE (prop s)) (fJ (prop s)) (fH s) (fH (prop s)) =
  v * (ueps (fE (prop s)) + mu * (Gsum (fH (prop s)) (curlE p (fE (prop s))) -
        t ^+ 2 / 4%:R * normsq (curlE p (fE (prop s))))).
Proof.
rewrite /ueps /Gsum /YeeSpec.normsq -[t ^+ 2 / _ * _]boxZ -boxN -boxD -boxZ -boxD -boxZ.
have [_ [_ [_ hz]]] := dielectric_ok hdi.
apply: eq_box => i j k h.
have [_ [_ hk]] := h; have [e1 e2] := hz k hk.
have [_ [_ [_ hv]]] := hdi; have [[_ m0] _] := hv _ _ _ h.
have cxP : is_cmp (@cx R) (@vx R) by split; auto.
have cyP : is_cmp (@cy R) (@vy R) by split; auto.
have czP : is_cmp (@cz R) (@vz R) by split; auto.
rewrite e1 e2 /uE m0 eqxx (back_H s cxP h) (back_H s cyP h) (back_H s czP h).
have L := hh_low; rewrite [(_ + _) * cx _ _ _ _]mulrC [(_ + _) * cy _ _ _ _]mulrC
  [(_ + _) * cz _ _ _ _]mulrC !L.
exact: (af_split R_field).
Qed.

Hypothesis hco : courant p dz em.
Let S := invsq (ds_x p) (ds_y p) dz.
Let kap := dt p ^+ 2 * S / mu.
Let gap := eo p * em - kap.

Lemma gap_gt0 : 0 < gap.
Proof.
rewrite /gap subr_gt0 /kap ltr_pdivr_mulr ?mu_gt0 //.
by rewrite [eo p * em * _]mulrC [mu * (eo p * em)]mulrA; exact: hco.
Qed.

Lemma S_ge0 : 0 <= S.
Proof. by rewrite /S /invsq !addr_ge0 ?invr_ge0 ?sqr_ge0. Qed.

Lemma low_energy s : walls pi pj pk s ->
  v * (gap * normsq (fE (prop s)) +
       mu * Gsum (fH (prop s)) (curlE p (fE (prop s)))) <=
  energy p pi pj pk (fE (prop s)) (fJ (prop s)) (fH s) (fH (prop s)).
Proof.
move=> hw; rewrite energy_split ler_wpmul2l ?(ltW v_gt0) //.
have [[h1 h2 h3 h4] [[x0 y0 z0 hz] [e0 hv]]] := hdi.
set E1 := fE (prop s); set A := normsq E1; set N := normsq (curlE p E1).
have hU : eo p * em * A <= ueps E1.
  rewrite /A /YeeSpec.normsq /ueps -boxZ; apply: le_box => i j k h.
  have [_ [ex ey ez]] := hv _ _ _ h.
  rewrite -mulrA ler_wpmul2l ?(ltW h2) // !mulrDr.
  by rewrite !ler_add // ler_wpmul2r ?sqr_ge0.
have hN : N <= 4%:R * S * A.
  apply: curl_le; first by case: (walls_prop hw).
  by move=> k /andP [_ hk]; exact: hz.
have e : kap * A = mu * (t ^+ 2 / 4%:R * (4%:R * S * A)).
  rewrite /kap /t !expr2.
  apply: (af_kap R_field).
  - by apply/eqP; rewrite lt0r_neq0 // mu_gt0.
  - by apply/eqP; rewrite pnatr_eq0.
set G := Gsum _ _.
apply: (@le_trans _ _ (eo p * em * A + mu * (G - t ^+ 2 / 4%:R * (4%:R * S * A)))).
  by rewrite /gap mulrBl e mulrBr addrA addrAC.
rewrite ler_add // ler_wpmul2l ?(ltW mu_gt0) // ler_add2l ler_opp2.
by rewrite ler_wpmul2l // mulr_ge0 ?sqr_ge0 ?invr_ge0 ?ler0n.
Qed.

Lemma G_ge0 (h c : arr R) : 0 <= Gsum h c.
Proof. by apply: box_ge0 => *; rewrite !addr_ge0 ?sqr_ge0. Qed.

Lemma normsq_ge0 (a : arr R) : 0 <= normsq a.
Proof. by apply: box_ge0 => *; rewrite !addr_ge0 ?sqr_ge0. Qed.

Lemma stable1 s W : walls pi pj pk s ->
  energy p pi pj pk (fE (prop s)) (fJ (prop s)) (fH s) (fH (prop s)) = W ->
  normsq (fE (prop s)) <= W / (v * gap) /\
  normsq (fH (prop s)) <=
    2%:R * (W / (v * mu) + t ^+ 2 / 4%:R * (4%:R * S * (W / (v * gap)))).
Proof.
move=> hw eW; have := low_energy hw; rewrite eW.
set A := normsq (fE (prop s)); set G := Gsum _ _ => hl.
have A0 : 0 <= A := normsq_ge0 _; have G0 : 0 <= G := G_ge0 _ _.
have hA : A <= W / (v * gap).
  rewrite ler_pdivl_mulr; last by apply: mulr_gt0; [exact: v_gt0|exact: gap_gt0].
  apply: le_trans hl; rewrite [A * _]mulrC -[v * gap * A]mulrA ler_wpmul2l ?(ltW v_gt0) //.
  by rewrite ler_addl mulr_ge0 // ltW // mu_gt0.
have hG : G <= W / (v * mu).
  rewrite ler_pdivl_mulr; last by apply: mulr_gt0; [exact: v_gt0|exact: mu_gt0].
  apply: le_trans hl; rewrite [G * _]mulrC -[v * mu * G]mulrA ler_wpmul2l ?(ltW v_gt0) //.
  by rewrite ler_addr mulr_ge0 // ltW // gap_gt0.
split => //.
have hN : normsq (curlE p (fE (prop s))) <= 4%:R * S * A.
  apply: curl_le; first by case: (walls_prop hw).
  have [_ [[_ _ _ hz] _]] := hdi.
  by move=> k /andP [_ hk]; exact: hz.
apply: (@le_trans _ _ (2%:R * (G + t ^+ 2 / 4%:R * normsq (curlE p (fE (prop s)))))).
  rewrite /G /Gsum /YeeSpec.normsq -[t ^+ 2 / _ * _]boxZ -boxD -boxZ.
  apply: le_box => i j k h.
  have sq a c : a ^+ 2 <= 2%:R * ((a + t * c / 2%:R) ^+ 2 + t ^+ 2 / 4%:R * c ^+ 2).
    exact: sq_le2.
  rewrite (_ : 2%:R * _ =
    2%:R * ((cx (fH (prop s)) i j k + t * cx (curlE p (fE (prop s))) i j k / 2%:R) ^+ 2 +
            t ^+ 2 / 4%:R * cx (curlE p (fE (prop s))) i j k ^+ 2) +
    2%:R * ((cy (fH (prop s)) i j k + t * cy (curlE p (fE (prop s))) i j k / 2%:R) ^+ 2 +
            t ^+ 2 / 4%:R * cy (curlE p (fE (prop s))) i j k ^+ 2) +
    2%:R * ((cz (fH (prop s)) i j k + t * cz (curlE p (fE (prop s))) i j k / 2%:R) ^+ 2 +
            t ^+ 2 / 4%:R * cz (curlE p (fE (prop s))) i j k ^+ 2)).
    by apply: ler_add; [apply: ler_add|]; exact: sq.
  exact: (af_regroup R_field).
rewrite ler_wpmul2l ?ler0n // ler_add // ler_wpmul2l //.
  by rewrite mulr_ge0 ?sqr_ge0 ?invr_ge0 ?ler0n.
by apply: (le_trans hN); rewrite ler_wpmul2l // mulr_ge0 ?ler0n ?S_ge0.
Qed.

(* the electric and magnetic field stay bounded for ever *)
Lemma stable s : walls pi pj pk s ->
  exists C, forall n,
    normsq (fE (iter n (propagate p pi pj pk) s)) +
    normsq (fH (iter n (propagate p pi pj pk) s)) <= C.
Proof.
move=> hw.
have hwn n : walls pi pj pk (iter n (propagate p pi pj pk) s).
  by elim: n => [|n ih] //=; exact: walls_prop.
have [hk [hs [hg _]]] := dielectric_ok hdi.
pose W := energy p pi pj pk (fE (prop s)) (fJ (prop s)) (fH s) (fH (prop s)).
have hW n : energy p pi pj pk (fE (prop (iter n (propagate p pi pj pk) s)))
    (fJ (prop (iter n (propagate p pi pj pk) s))) (fH (iter n (propagate p pi pj pk) s))
    (fH (prop (iter n (propagate p pi pj pk) s))) = W.
  elim: n => [|n ih] //=; rewrite -ih.
  have := energy_balance (hwn n) (hg (iter n (propagate p pi pj pk) s)) hk hs.
  have -> : heat p pi pj pk (fJ (prop (iter n (propagate p pi pj pk) s)))
     (fJ (prop (prop (iter n (propagate p pi pj pk) s)))) = 0.
    rewrite /heat -[RHS]box0; apply: eq_box => i j k h.
    have [_ [_ [_ hv]]] := hdi; have [[_ m0] _] := hv _ _ _ h.
    by rewrite /heat1 m0 eqxx /= !addr0 !mulr0 addr0 mulr0.
  by rewrite addr0.
exists (normsq (fE s) + normsq (fH s) + (`|W / (v * gap)| +
  `|2%:R * (W / (v * mu) + t ^+ 2 / 4%:R * (4%:R * S * (W / (v * gap))))|)).
case=> [|n] /=; first by rewrite ler_addl addr_ge0 // normr_ge0.
have [a b] := stable1 (hwn n) (hW n).
apply: ler_paddl; first by rewrite addr_ge0 ?normsq_ge0.
by apply: ler_add; [apply: (le_trans a)|apply: (le_trans b)]; exact: ler_norm.
Qed.

End Stable.

End Yee.

(* ---------------------------------------------------------------- *)
Section More.
Variable R : realFieldType.
Variable p : par R.
Variables (pi pj pk : nat).
Local Notation prop := (propagate p pi pj pk).
Local Notation int_ := (interior pi pj pk).

(* the order in which the cells are visited *)
Lemma H_cell_ext s t i j k : same_fields s t ->
  fH (H_cell p s i j k) i j k = fH (H_cell p t i j k) i j k /\
  fB (H_cell p s i j k) i j k = fB (H_cell p t i j k) i j k.
Proof.
move=> h.
have e a b c : fE s a b c = fE t a b c by case: (h a b c).
have [_ h1 _ h2 _] := h i j k.
rewrite /H_cell; case: ifP => _.
  by rewrite /normal_H_field_update /= !put_same h1 !e.
case: ifP => _; first by rewrite /normal_H_field_update /= !put_same h1 !e.
case: ifP => _; first by rewrite /pcm_H_field_update /= !put_same.
by case: ifP => _ //; rewrite /pml_H_field_update /= !put_same h1 h2 !e.
Qed.

Lemma order_E cs s : perm_eq cs (cells pi pj pk) ->
  same_fields (sweep (E_cell p) cs s) (sweep (E_cell p) (cells pi pj pk) s).
Proof.
move=> hp i j k.
have hu : uniq cs by rewrite (perm_uniq hp) uniq_cells.
have [b1 v1] := sweepE p s hu; have [b2 v2] := sweepE p s (uniq_cells pi pj pk).
move: b1 b2 (v1 (i, j, k)); rewrite (perm_mem hp) -(v2 (i, j, k)).
by rewrite /bgE /viewE /at_ /= => -[-> ->] [-> ->] [-> -> ->].
Qed.

Lemma order_H cs s t : perm_eq cs (cells pi pj pk) -> same_fields s t ->
  same_fields (sweep (H_cell p) cs s) (sweep (H_cell p) (cells pi pj pk) t).
Proof.
move=> hp hst i j k.
have hu : uniq cs by rewrite (perm_uniq hp) uniq_cells.
have [b1 v1] := sweepH p s hu; have [b2 v2] := sweepH p t (uniq_cells pi pj pk).
move: b1 b2 (v1 (i, j, k)) (v2 (i, j, k)); rewrite (perm_mem hp).
have [e1 e2 e3 e4 e5] := hst i j k; have [e6 e7] := H_cell_ext i j k hst.
rewrite /bgH /viewH /stepH /at_ /= => -[-> -> ->] [-> -> ->].
by case: ifP => _ [-> ->] [-> ->].
Qed.

Lemma order cs1 cs2 s : perm_eq cs1 (cells pi pj pk) -> perm_eq cs2 (cells pi pj pk) ->
  same_fields (sweep (H_cell p) cs2 (sweep (E_cell p) cs1 s)) (prop s).
Proof. by move=> h1 h2; apply: order_H => //; exact: order_E. Qed.

Lemma outside s i j k : ~ int_ i j k ->
  [/\ fE (prop s) i j k = fE s i j k, fH (prop s) i j k = fH s i j k,
      fD (prop s) i j k = fD s i j k, fB (prop s) i j k = fB s i j k &
      fJ (prop s) i j k = fJ s i j k].
Proof.
by move=> h; have [-> -> ->] := prop_E_out p s h; have [-> ->] := prop_H_out p s h.
Qed.

Lemma plain_H s i j k : int_ i j k -> plain_cell p i j k -> constants_ok p ->
  faraday (uo p * ups p) (dt p) (ds_x p) (ds_y p) (ds_nz p) (fE (prop s)) (fH s)
    (fH (prop s)) i j k.
Proof.
move=> h hc hk; case: hc => [hv|[hm|hm]]; last exact: mol_H.
- by apply: faraday_ok => //; left.
- by apply: faraday_ok => //; right.
Qed.

Lemma conductor s i j k : int_ i j k -> conductor_cell p i j k ->
  fE (prop s) i j k = V3 0 0 0 /\ fH (prop s) i j k = V3 0 0 0.
Proof.
by move=> h hc; have [-> _] := cond_E s h hc; rewrite (cond_H s h hc).
Qed.

Lemma divH_iter s n i j k :
  (forall c, c \in [:: (i, j, k); (i.+1, j, k); (i, j.+1, k); (i, j, k.+1)] ->
     int_ c.1.1 c.1.2 c.2 /\ plain_cell p c.1.1 c.1.2 c.2) ->
  constants_ok p ->
  divH (ds_x p) (ds_y p) (ds_nz p) (fH (iter n prop s)) i j k =
  divH (ds_x p) (ds_y p) (ds_nz p) (fH s) i j k.
Proof.
move=> hc hk; elim: n => [|n <-] //=.
have c0 := hc (i, j, k); have c1 := hc (i.+1, j, k).
have c2 := hc (i, j.+1, k); have c3 := hc (i, j, k.+1).
apply: divH_step => //.
- by case: c0 => /= [|a b]; [rewrite !inE eqxx | exact: plain_H].
- by case: c1 => /= [|a b]; [rewrite !inE eqxx ?orbT | exact: plain_H].
- by case: c2 => /= [|a b]; [rewrite !inE eqxx ?orbT | exact: plain_H].
- by case: c3 => /= [|a b]; [rewrite !inE eqxx ?orbT | exact: plain_H].
Qed.

Lemma mol_ampere s i j k : int_ i j k ->
  vacuum_cell p i j k \/ molecular_cell p i j k -> eps_ok p i j k -> constants_ok p ->
  ampere (eo p) (dt p) (ds_x p) (ds_y p) (ds_nz p) (epsilon p) (fE s)
    (fE (prop s)) (fH s) (molecular_current p) i j k.
Proof.
move=> h hv he hk; case: hv => hv.
  have := ampere_vac s h hv hk he.
  case: hv => _ m0.
  by rewrite /ampere /molecular_current /cx /cy /cz m0 eqxx /=.
have := ampere_mol s h hv hk he.
case: hv => _ m0.
by rewrite /ampere /molecular_current /cx /cy /cz m0 pnatr_eq0 /=.
Qed.

Lemma divD_one s i j k :
  (forall c, c \in [:: (i, j, k); (i.-1, j, k); (i, j.-1, k); (i, j, k.-1)] ->
     int_ c.1.1 c.1.2 c.2 /\
     (vacuum_cell p c.1.1 c.1.2 c.2 \/ molecular_cell p c.1.1 c.1.2 c.2) /\
     eps_ok p c.1.1 c.1.2 c.2) ->
  constants_ok p ->
  divD (ds_x p) (ds_y p) (ds_nz p) (epsilon p) (fE (prop s)) i j k =
  divD (ds_x p) (ds_y p) (ds_nz p) (epsilon p) (fE s) i j k -
  dt p / eo p * divD (ds_x p) (ds_y p) (ds_nz p) (fun _ _ _ => V3 1 1 1)
    (molecular_current p) i j k.
Proof.
move=> hc hk.
have c0 := hc (i, j, k); have c1 := hc (i.-1, j, k).
have c2 := hc (i, j.-1, k); have c3 := hc (i, j, k.-1).
have -> : divD (ds_x p) (ds_y p) (ds_nz p) (fun _ _ _ => V3 1 1 1)
    (molecular_current p) i j k =
  bx (ds_x p) (cx (molecular_current p)) i j k + by_ (ds_y p) (cy (molecular_current p)) i j k +
                 bz (dual (ds_nz p)) (cz (molecular_current p)) i j k.
  by rewrite /divD /bx /by_ /bz /cx /cy /cz /= !mul1r.
have l0 : (0 < i)%N /\ (0 < j)%N /\ (0 < k)%N.
  by case: c0 => /= [|[/andP [-> _] [/andP [-> _] /andP [-> _]]] _]; rewrite ?inE ?eqxx.
case: l0 => [l1 [l2 l3]].
apply: divD_step => //.
- by case: c0 => /= [|a [b c]]; [rewrite !inE eqxx | exact: mol_ampere].
- by case: c1 => /= [|a [b c]]; [rewrite !inE eqxx ?orbT | exact: mol_ampere].
- by case: c2 => /= [|a [b c]]; [rewrite !inE eqxx ?orbT | exact: mol_ampere].
- by case: c3 => /= [|a [b c]]; [rewrite !inE eqxx ?orbT | exact: mol_ampere].
Qed.

(* Joule heat *)
Lemma heat_none J J' : (forall i j k, int_ i j k ->
    vacuum_cell p i j k \/ conductor_cell p i j k) -> heat p pi pj pk J J' = 0.
Proof.
move=> h; rewrite -(box0 R pi pj pk); apply: eq_box => i j k /h hc.
have e : (mepsilon p i j k == 0) || (mepsilon p i j k == 1000%:R) = true.
  by case: hc => [[_ ->]|[_ ->]]; rewrite eqxx ?orbT.
by rewrite /heat1 e !(mulr0, addr0).
Qed.

Lemma heat1_ge0 J J' i j k cmp : passive p pi pj pk -> int_ i j k ->
  0 <= heat1 p J J' i j k cmp.
Proof.
move=> [[hd he _ _ _] hg] h; rewrite /heat1; case: ifP => // _.
have h2 : 0 <= 2%:R :> R := ler0n R 2.
apply: mulr_ge0; last first.
  rewrite invr_ge0; apply: mulr_ge0; last exact: sqr_ge0.
  by apply: mulr_ge0 => //; exact: ltW.
apply: mulr_ge0; last exact: sqr_ge0.
by apply: mulr_ge0; [exact: hg | exact: ltW].
Qed.

Lemma heat_ge0 J J' : passive p pi pj pk -> 0 <= heat p pi pj pk J J'.
Proof.
move=> hp; have [[hd he hx hy hz] hg] := hp.
rewrite -(box0 R pi pj pk); apply: le_box => i j k h.
have hu : 0 <= dual (ds_nz p) k by rewrite /dual mulr_ge0 ?invr_ge0 ?ler0n ?addr_ge0.
apply: mulr_ge0; first exact: mulr_ge0.
apply: addr_ge0; apply: mulr_ge0 => //; last exact: heat1_ge0.
by apply: addr_ge0; exact: heat1_ge0.
Qed.

Let run s m := iter m prop s.
Lemma run_ok s n : walls pi pj pk s -> (forall i j k, int_ i j k -> good_cell p s i j k) ->
  walls pi pj pk (run s n) /\ forall i j k, int_ i j k -> good_cell p (run s n) i j k.
Proof.
move=> hw hg; elim: n => [|n [h1 h2]] //; split; first exact: walls_prop.
by move=> i j k h; apply: good_prop => //; exact: h2.
Qed.

Lemma energy_run s n :
  walls pi pj pk s -> (forall i j k, int_ i j k -> good_cell p s i j k) ->
  constants_ok p -> spacings_ok p pk ->
  energy_at p pi pj pk (fun m => iter m prop s) n.+1 +
  heat p pi pj pk (fJ (iter n.+1 prop s)) (fJ (iter n.+2 prop s)) =
  energy_at p pi pj pk (fun m => iter m prop s) n.
Proof.
by move=> hw hg hc hs; have [h1 h2] := run_ok n hw hg; exact: energy_balance.
Qed.

Lemma energy_kept s n :
  walls pi pj pk s -> (forall i j k, int_ i j k -> good_cell p s i j k) ->
  (forall i j k, int_ i j k -> vacuum_cell p i j k \/ conductor_cell p i j k) ->
  constants_ok p -> spacings_ok p pk ->
  energy_at p pi pj pk (fun m => iter m prop s) n =
  energy_at p pi pj pk (fun m => iter m prop s) 0.
Proof.
move=> hw hg hn hc hs; elim: n => [|n <-] //.
by rewrite -(energy_run n hw hg hc hs) heat_none // addr0.
Qed.

Lemma energy_iter s n :
  walls pi pj pk s -> (forall i j k, int_ i j k -> good_cell p s i j k) ->
  passive p pi pj pk -> constants_ok p -> spacings_ok p pk ->
  energy_at p pi pj pk (fun m => iter m prop s) n.+1 <=
  energy_at p pi pj pk (fun m => iter m prop s) n.
Proof.
move=> hw hg hp hc hs.
by rewrite -(energy_run n hw hg hc hs) ler_addl; exact: heat_ge0.
Qed.

(* the absorbing layer *)
Lemma relax_off dt eo (f f' : R) : relax eo dt 1 0 f f' = (f' - f) / dt.
Proof. by rewrite /relax mul1r !mul0r addr0. Qed.

Lemma layer_none s i j k : int_ i j k -> layer_cell p i j k -> layer_ok p i j k ->
  eps_ok p i j k -> layer_off p i j k ->
  ampere (eo p) (dt p) (ds_x p) (ds_y p) (ds_nz p) (epsilon p) (fE s)
    (fE (prop s)) (fH s) (@no_current R) i j k /\
  faraday (uo p * ups p) (dt p) (ds_x p) (ds_y p) (ds_nz p) (fE (prop s)) (fH s)
    (fH (prop s)) i j k.
Proof.
move=> h hl ho he [[k1 k2 k3] [[s1 s2 s3] [t1 t2 t3]]].
have [[[a1 a2 a3] [b1 b2 b3]] [[c1 c2 c3] [d1 d2 d3]]] := layer_laws s h hl ho he.
move: a1 a2 a3 b1 b2 b3 c1 c2 c3 d1 d2 d3.
rewrite k1 k2 k3 s1 s2 s3 t1 t2 t3 !relax_off.
move=> a1 a2 a3 b1 b2 b3 c1 c2 c3 d1 d2 d3.
split; split; rewrite -mulrA.
- by rewrite b1 a1 subr0.
- by rewrite b2 a2 subr0.
- by rewrite b3 a3 subr0.
- by rewrite d1 c1.
- by rewrite d2 c2.
- by rewrite d3 c3.
Qed.

Lemma relax_decay eo dt kap sig (f f' : R) : 0 < eo -> 0 < dt -> 0 < kap -> 0 <= sig ->
  relax eo dt kap sig f f' = 0 ->
  f' ^+ 2 <= f ^+ 2 /\ (0 < sig -> f <> 0 -> f' ^+ 2 < f ^+ 2).
Proof.
move=> he hd hk hs h.
have e : (f' ^+ 2 - f ^+ 2) * (kap / dt) = - (sig / (2%:R * eo)) * (f' + f) ^+ 2.
  have nz (x : R) : 0 < x -> x <> 0 by move=> /lt0r_neq0/eqP.
  have := af_relax (R_field R) kap sig f f' (@two_ne R) (nz _ he) (nz _ hd).
  move: h; rewrite /relax !expr2 => ->.
  by rewrite mul0r add0r mulNr => ->.
have hkd : 0 < kap / dt by rewrite divr_gt0.
have hsd : 0 <= sig / (2%:R * eo) by rewrite divr_ge0 // mulr_ge0 ?ler0n // ltW.
have l : f' ^+ 2 <= f ^+ 2.
  rewrite -subr_le0 -(pmulr_lle0 _ hkd) e mulNr oppr_le0.
  by rewrite mulr_ge0 ?sqr_ge0.
split=> // hs0 hf; rewrite lt_neqAle l andbT; apply/eqP => q.
move: e; rewrite q subrr mul0r => /esym/eqP; rewrite mulf_eq0 oppr_eq0 mulf_eq0.
rewrite gt_eqF //= invr_eq0 mulf_eq0 pnatr_eq0 /= gt_eqF //= sqrf_eq0 addr_eq0.
move=> /eqP e; move: h; rewrite e /relax addNr mul0r mulr0 mul0r addr0.
move=> /eqP; rewrite !mulf_eq0 invr_eq0 (gt_eqF hk) (gt_eqF hd) /= orbF.
rewrite -opprD oppr_eq0 -mulr2n mulrn_eq0 /= => /eqP; exact: hf.
Qed.

Lemma layer_decay s i j k : int_ i j k -> layer_cell p i j k -> layer_ok p i j k ->
  eps_ok p i j k -> 
  (by_ (ds_y p) (cz (fH s)) i j k - bz (dual (ds_nz p)) (cy (fH s)) i j k = 0 ->
   cx (fD (prop s)) i j k ^+ 2 <= cx (fD s) i j k ^+ 2 /\
   (0 < sgy p j -> cx (fD s) i j k <> 0 ->
    cx (fD (prop s)) i j k ^+ 2 < cx (fD s) i j k ^+ 2)) /\
  (bz (dual (ds_nz p)) (cx (fH s)) i j k - bx (ds_x p) (cz (fH s)) i j k = 0 ->
   cy (fD (prop s)) i j k ^+ 2 <= cy (fD s) i j k ^+ 2 /\
   (0 < sgz p k -> cy (fD s) i j k <> 0 ->
    cy (fD (prop s)) i j k ^+ 2 < cy (fD s) i j k ^+ 2)) /\
  (bx (ds_x p) (cy (fH s)) i j k - by_ (ds_y p) (cx (fH s)) i j k = 0 ->
   cz (fD (prop s)) i j k ^+ 2 <= cz (fD s) i j k ^+ 2 /\
   (0 < sgx p i -> cz (fD s) i j k <> 0 ->
    cz (fD (prop s)) i j k ^+ 2 < cz (fD s) i j k ^+ 2)).
Proof.
move=> h hl ho he.
have [[[a1 a2 a3] _] _] := layer_laws s h hl ho he.
have [[hd h0 hu hp] [[k1 k2 k3] [[s1 s2 s3] [t1 t2 t3]]]] := ho.
split; [|split] => e.
- by apply: (@relax_decay (eo p) (dt p) (ky p)) => //; rewrite a1.
- by apply: (@relax_decay (eo p) (dt p) (kz p)) => //; rewrite a2.
- by apply: (@relax_decay (eo p) (dt p) (kx p)) => //; rewrite a3.
Qed.

End More.

(* ---------------------------------------------------------------- *)
(* an unstable run: one cell, c dt = 2 grid spacings *)
Section Unstable.
Variable R : realFieldType.

Definition p_fast : par R :=
  Par 2%:R 1 1 1 1 1 (fun _ => 1) 1 1 1
    (fun _ => 0) (fun _ => 0) (fun _ => 0) (fun _ => 0) (fun _ => 0) (fun _ => 0)
    (fun _ _ _ => V3 1 1 1) (fun _ _ _ => 0) (fun _ _ _ => 0) (fun _ _ _ => 0)
    (fun _ _ _ => true) (no_current R) (no_current R).

Definition s_fast : state R :=
  St (put (no_current R) 1 1 1 (V3 1 (- 1) 0))
     (put (no_current R) 1 1 1 (V3 1 1 (- (2%:R * 1))))
     (no_current R) (no_current R) (no_current R).

Definition fast (n : nat) (s : state R) : Prop :=
  (forall i j k, ~ interior 2 2 2 i j k ->
     fE s i j k = V3 0 0 0 /\ fH s i j k = V3 0 0 0) /\
  exists g x y, [/\ fE s 1%N 1%N 1%N = V3 (g * x) (- (g * x)) 0,
    fH s 1%N 1%N 1%N = V3 (g * y) (g * y) (- (2%:R * (g * y))),
    g * g = 1, 2%:R ^+ n <= x & x <= y].

Lemma in111 : interior 2 2 2 1 1 1. Proof. by []. Qed.

Lemma fast0 : fast 0 s_fast.
Proof.
split.
  move=> i j k h; rewrite /s_fast /= /put.
  by case: ifP => // /and3P [/eqP e1 /eqP e2 /eqP e3]; case: h; rewrite e1 e2 e3.
exists 1, 1, 1; split => //.
- by rewrite /= put_same !mul1r.
- by rewrite /= put_same !mul1r.
- by rewrite mulr1.
Qed.

Lemma fastS n s : fast n s -> fast n.+1 (propagate p_fast 2 2 2 s).
Proof.
move=> [ho [g [x [y [eE eH hg hx hy]]]]].
have vac i j k : vacuum_cell p_fast i j k by [].
pose s1 := propagate p_fast 2 2 2 s.
have o1 i j k : ~ interior 2 2 2 i j k ->
    fE s1 i j k = V3 0 0 0 /\ fH s1 i j k = V3 0 0 0.
  move=> h; have [a b] := ho _ _ _ h.
  have := prop_E_out p_fast s h; have := prop_H_out p_fast s h.
  by rewrite -/s1 a b => -[-> _] [-> _ _].
have [[a1 a2 a3] [[b1 b2 b3] ge]] := af_grow (R_field R) g x y.
pose x' : R := (1 + 1) * ((1 + 1) * y + y) - x.
pose y' : R := (1 + 1) * x' - y.
have z i j k : ~ interior 2 2 2 i j k -> fH s i j k = V3 0 0 0.
  by move=> /ho [].
have e1 : fE s1 1%N 1%N 1%N = V3 (- g * x') (- (- g * x')) 0.
  rewrite /s1 (vac_E s in111 (vac 1%N 1%N 1%N)) /normal_E_field_update /= put_same.
  rewrite eE eH !z /=; try by case=> [h1 [h2 h3]].
  rewrite !(divr1, mulr1, subr0) (_ : 2%:R / (1 + 1) = 1) ?mulr1; last first.
    by rewrite divff // pnatr_eq0.
  congr V3; [exact: a1| |exact: a3].
  by rewrite opprK; exact: a2.
have e2 : fH s1 1%N 1%N 1%N = V3 (- g * y') (- g * y') (- (2%:R * (- g * y'))).
  rewrite /s1 (vac_H s in111 (vac 1%N 1%N 1%N)) /normal_H_field_update /= put_same.
  rewrite -/s1 e1 eH /=.
  have o i j k : ~ interior 2 2 2 i j k -> fE s1 i j k = V3 0 0 0.
    by move=> /o1 [].
  rewrite !o /=; try by case=> [h1 [h2 h3]].
  by rewrite /tus /= !divr1; congr V3; [exact: b1|exact: b2|exact: b3].
split => //; exists (- g), x', y'.
have x0 : 0 <= x by apply: le_trans hx; rewrite exprn_ge0 // ler0n.
have y0 : 0 <= y := le_trans x0 hy.
have hx' : 2%:R * y <= x'.
  rewrite -subr_ge0 [X in 0 <= X]ge; apply: addr_ge0; first by rewrite subr_ge0.
  by apply: addr_ge0 => //; apply: mulr_ge0 => //; exact: (ler0n R 2).
split => //.
- by rewrite mulrNN.
- rewrite exprS; apply: le_trans hx'.
  by rewrite ler_wpmul2l ?ler0n // (le_trans hx hy).
- rewrite /y' ler_subr_addr mulrDl mul1r ler_add2l.
  by apply: le_trans hx'; rewrite mulr_natl mulr2n ler_addl.
Qed.

Lemma unstable : dielectric p_fast 2 2 2 1 1 /\ walls 2 2 2 s_fast /\
  forall n, 2%:R ^+ n <= normsq 2 2 2 (fE (iter n (propagate p_fast 2 2 2) s_fast)).
Proof.
split.
  split; first by rewrite /= ltr01 ltr0n.
  split; first by rewrite /= ltr01.
  by split; first exact: ltr01.
have h0 : forall i j k, ~ interior 2 2 2 i j k ->
    fE s_fast i j k = V3 0 0 0 /\ fH s_fast i j k = V3 0 0 0 by case: fast0.
split.
  split; split=> a b; rewrite /cx /cy /cz;
  by [ (case: (h0 2%N a b); first by case=> [[]]) => -> _
     | (case: (h0 a 2%N b); first by case=> [_ [[]]]) => -> _
     | (case: (h0 a b 2%N); first by case=> [_ [_ []]]) => -> _
     | (case: (h0 0%N a b); first by case=> [[]]) => _ ->
     | (case: (h0 a 0%N b); first by case=> [_ [[]]]) => _ ->
     | (case: (h0 a b 0%N); first by case=> [_ [_ []]]) => _ -> ].
move=> n.
have : fast n (iter n (propagate p_fast 2 2 2) s_fast).
  by elim: n => [|n ih]; [exact: fast0 | exact: fastS].
set s := iter n _ _; move=> [_ [g [x [y [eE _ hg hx _]]]]].
rewrite /normsq /box !big_nat1 /cx /cy /cz eE /= sqrrN !exprMn -[g ^+ 2]/(g * g) hg !mul1r.
rewrite expr0n /= addr0; apply: (le_trans hx).
have x1 : 1 <= x by apply: le_trans hx; rewrite exprn_ege1 // ler1n.
apply: (@le_trans _ _ (x ^+ 2)); last by rewrite ler_addl sqr_ge0.
by rewrite expr2 ler_pmulr // (lt_le_trans ltr01 x1).
Qed.

End Unstable.
