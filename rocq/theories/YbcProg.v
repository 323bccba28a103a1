(* Lemmas for YbcProofs: programs of assignments, the half steps and the
   destinations of the periodic boundary programs. *)
From mathcomp Require Import all_ssreflect all_algebra.
From Verif Require Import YeeModel YeeSpec YeeProofs YbcModel YbcSpec.
Set Implicit Arguments.
Unset Strict Implicit.
Unset Printing Implicit Defensive.
Import GRing.Theory Num.Theory Order.TTheory.
Local Open Scope ring_scope.

(* ---- programs of assignments ---- *)
Section Exec.
Variable F : fieldType.
Implicit Types (S : cst F) (l : loc) (prog : seq (asg F)).

Lemma comp_setc (c c' : option bool) (v : v3 F) x :
  comp c' (setc c v x) = if c' == c then x else comp c' v.
Proof. by case: c c' => [[]|] [[]|]. Qed.

Lemma get_put1 S l l' x : get (put1 S l x) l' = if l' == l then x else get S l'.
Proof.
case: l l' => [[[im h] c] [[i j] k]] [[[im' h'] c'] [[i' j'] k']].
rewrite !xpair_eqE /get /put1 /put1s /putf /put.
case: im; case: im' => //=; case: h; case: h' => //=; rewrite ?andbF //=.
all: case: (i' =P i) => [->|_] /=; last by rewrite andbF.
all: case: (j' =P j) => [->|_] /=; last by rewrite andbF.
all: case: (k' =P k) => [->|_] /=; last by rewrite andbF.
all: by rewrite comp_setc andbT.
Qed.

Lemma exec_cons a prog S : exec (a :: prog) S = exec prog (exec1 S a).
Proof. by []. Qed.
Lemma exec_cat p1 p2 S : exec (p1 ++ p2) S = exec p2 (exec p1 S).
Proof. by rewrite /exec foldl_cat. Qed.

Lemma exec_out prog S l : (forall a, a \in prog -> a.1 <> l) ->
  get (exec prog S) l = get S l.
Proof.
elim: prog S => [|a prog ih] S h //.
rewrite exec_cons ih => [|b hb]; last by apply: h; rewrite in_cons hb orbT.
rewrite /exec1 get_put1; case: eqP => // e.
by case: (h a); rewrite ?mem_head.
Qed.

Lemma rhs_ext S S' (e : seq (F * loc)) :
  (forall t, t \in e -> get S t.2 = get S' t.2) -> rhs S e = rhs S' e.
Proof. by move=> h; apply: eq_big_seq => t /h ->. Qed.

Lemma exec_in prog S d e : (d, e) \in prog ->
  (forall a, a \in prog -> a.1 = d -> a.2 = e) ->
  (forall a t, a \in prog -> t \in e -> a.1 <> t.2) ->
  get (exec prog S) d = rhs S e.
Proof.
elim: prog S => [|a prog ih] S // hin hf hs; rewrite exec_cons.
have hf' a' : a' \in prog -> a'.1 = d -> a'.2 = e.
  by move=> h; apply: hf; rewrite in_cons h orbT.
have hs' a' t : a' \in prog -> t \in e -> a'.1 <> t.2.
  by move=> h; apply: hs; rewrite in_cons h orbT.
have e1 : rhs (exec1 S a) e = rhs S e.
  apply: rhs_ext => t ht; rewrite /exec1 get_put1; case: eqP => // E.
  by case: (hs a t); rewrite ?mem_head.
case hd: ((d, e) \in prog); first by rewrite ih.
move: hin; rewrite in_cons hd orbF => /eqP ea.
case hx: (has (fun b => b.1 == d) prog).
  case/hasP: hx => b hb /eqP eb.
  have e2 : b.2 = e by apply: hf'.
  by rewrite -eb -e2 -surjective_pairing hb in hd.
rewrite exec_out; last first.
  by move=> b hb eb; case/hasP: hx; exists b => //; apply/eqP.
by rewrite /exec1 -ea get_put1 eqxx.
Qed.

(* which arrays a program changes *)
Lemma exec_keeps (h : bool) prog S : (forall a, a \in prog -> a.1.1.1.2 = h) ->
  (forall im : bool, let s := if im then cim S else cre S in
     let t := if im then cim (exec prog S) else cre (exec prog S) in
     [/\ (if h then fE t = fE s else fH t = fH s), fD t = fD s, fB t = fB s & fJ t = fJ s]).
Proof.
elim: prog S => [|a prog ih] S hp im; first by case: (h).
rewrite exec_cons.
have hp' b : b \in prog -> b.1.1.1.2 = h by move=> hb; apply: hp; rewrite in_cons hb orbT.
have ha : a.1.1.1.2 = h by apply: hp; rewrite mem_head.
have := ih (exec1 S a) hp' im.
case: a ha {hp ih} => [[[[im' h'] c] [[i j] k]] e] /= ->.
rewrite /exec1 /put1 /put1s /=.
by case: im' => /=; case: im => /=; case: (h) => /= -[-> -> -> ->]; split.
Qed.

Lemma mem_iota1 n a : (a \in iota 1 (n - 1)) = (1 <= a < n)%N.
Proof. by rewrite mem_iota; case: a n => [|m] [|n] //=; rewrite ?subn0 ?add1n ?subn1 // ltnS. Qed.
Lemma mem_iotaf lo n a : (a \in iota lo (n - lo)) = (lo <= a < n)%N.
Proof.
rewrite mem_iota; case: (leqP lo n) => h; first by rewrite subnKC.
have -> : (n - lo = 0)%N by apply/eqP; rewrite subn_eq0 ltnW.
rewrite addn0; apply/idP/idP; case/andP => h1 h2.
  by have := leq_ltn_trans h1 h2; rewrite ltnn.
by have := leq_ltn_trans h1 (ltn_trans h2 h); rewrite ltnn.
Qed.

Lemma mem_loop2 n m (body : nat -> nat -> seq (asg F)) a :
  reflect (exists i k, [/\ (1 <= i < n)%N, (1 <= k < m)%N & a \in body i k])
    (a \in loop2 n m body).
Proof.
apply: (iffP flatten_mapP) => [[i hi /flatten_mapP [k hk h]]|[i [k [hi hk h]]]].
  by exists i, k; rewrite -!mem_iota1.
exists i; first by rewrite mem_iota1.
by apply/flatten_mapP; exists k => //; rewrite mem_iota1.
Qed.
Lemma mem_loop2f lo n m (body : nat -> nat -> seq (asg F)) a :
  reflect (exists i k, [/\ (lo <= i < n)%N, (1 <= k < m)%N & a \in body i k])
    (a \in loop2_from lo n m body).
Proof.
apply: (iffP flatten_mapP) => [[i hi /flatten_mapP [k hk h]]|[i [k [hi hk h]]]].
  by exists i, k; rewrite -mem_iotaf -mem_iota1.
exists i; first by rewrite mem_iotaf.
by apply/flatten_mapP; exists k => //; rewrite mem_iota1.
Qed.
End Exec.

(* ---- the electric and magnetic half steps ---- *)
Section Half.
Variable R : realFieldType.
Variable p : par R.
Variables pi pj pk : nat.
Local Notation int_ := (interior pi pj pk).
Local Notation cs := (cells pi pj pk).

Lemma prop_sweep s :
  let t := sweep (E_cell p) cs s in
  [/\ fE (propagate p pi pj pk s) = fE t, fD (propagate p pi pj pk s) = fD t &
      fJ (propagate p pi pj pk s) = fJ t].
Proof.
have [hb _] := sweepH p (sweep (E_cell p) cs s) (uniq_cells pi pj pk).
by move: hb; rewrite /bgH => -[-> -> ->].
Qed.

(* the imaginary loop is the real one where no cell is molecular *)
Lemma no_mol s i j k : mepsilon p i j k <> 100%:R -> iE_cell p s i j k = E_cell p s i j k.
Proof. by rewrite /E_cell /iE_cell => /eqP/negbTE ->; rewrite andbF. Qed.
Lemma sweep_no_mol s : (forall i j k, int_ i j k -> mepsilon p i j k <> 100%:R) ->
  sweep (iE_cell p) cs s = sweep (E_cell p) cs s.
Proof.
move=> h; have : forall c, c \in cs -> mepsilon p c.1.1 c.1.2 c.2 <> 100%:R.
  by move=> c /mem_cells hc; apply: h.
elim: cs s => [|c l ih] s hl //=.
by rewrite no_mol ?ih // => [c' hc|]; apply: hl; rewrite ?mem_head // in_cons hc orbT.
Qed.

Lemma sweepE_law s i j k : int_ i j k -> cell_ok p i j k ->
  electric_law p s (sweep (E_cell p) cs s) i j k.
Proof.
move=> h [hc [h1 [h2 h3]]]; have [eE eD eJ] := prop_sweep s.
split=> [hv|]; first by rewrite -eE; apply: ampere_vac => //; apply: h1; left.
split=> [hm|]; first by have [a b] := h2 hm; rewrite -eE -eJ; apply: metal_laws.
split=> [hq|hl]; first by rewrite -eE; have [] := cond_E s h hq.
by rewrite -eE -eD; case: (layer_laws s h hl (h3 hl) (h1 (or_intror hl))).
Qed.

Lemma sweepH_at t i j k : int_ i j k ->
  fH (sweep (H_cell p) cs t) i j k = fH (H_cell p t i j k) i j k /\
  fB (sweep (H_cell p) cs t) i j k = fB (H_cell p t i j k) i j k.
Proof.
move=> h; have [_ /(_ (i, j, k))] := sweepH p t (uniq_cells pi pj pk).
by rewrite (introT (mem_cells pi pj pk (i, j, k)) h) /viewH /at_ /= => -[].
Qed.

Lemma sweepH_law t i j k : int_ i j k -> cell_ok p i j k ->
  let t' := sweep (H_cell p) cs t in
  (plain_cell p i j k ->
     faraday (uo p * ups p) (dt p) (ds_x p) (ds_y p) (ds_nz p) (fE t) (fH t) (fH t') i j k) /\
  (conductor_cell p i j k -> fH t' i j k = V3 0 0 0) /\
  (layer_cell p i j k -> layer_H p (fH t) (fH t') (fB t) (fB t') (fE t) i j k).
Proof.
move=> h [[hd he hu hp] [_ [_ h3]]] /=; have [eH eB] := sweepH_at t h.
split.
  move=> hv.
  have e : fH (H_cell p t i j k) i j k = fH (normal_H_field_update p t i j k) i j k.
    case: hv => [[h1 h2]|[[a1 a2 a3]|[h1 h2]]]; rewrite /H_cell.
    - by rewrite h1 h2 (eqr_nat R 0 1000).
    - rewrite (negbTE (ne0 a1)); move/eqP: a3 => /negbTE ->.
      by case: (position p i j k).
    - by rewrite h1 h2 eqr_nat.
  rewrite /faraday /cx /cy /cz eH e /normal_H_field_update /= put_same /=.
  by split; apply: r_faraday.
split.
  move=> [h1 h2]; rewrite eH /H_cell h1 h2 eqxx /= /pcm_H_field_update /=.
  by rewrite put_same.
move=> hl; have [h1 h2] := hl.
move: (h3 hl) => [[gd ge gu gp] [[k1 k2 k3] [[s1 s2 s3] [t1 t2 t3]]]].
have nz (x : R) : 0 < x -> x <> 0 by move=> /lt0r_neq0/eqP.
have D := den_ne gd ge.
have e : H_cell p t i j k = pml_H_field_update p t i j k by rewrite /H_cell h1 h2 eqxx.
rewrite e in eH eB; split.
- rewrite /cx /cy /cz eB /pml_H_field_update /= !put_same /=.
  by split; apply: (af_pml_b (R_field R)) => //; first [exact: two_ne | exact: D].
- rewrite /cx /cy /cz eH eB /pml_H_field_update /= !put_same /=.
  by split; apply: (af_pml_h (R_field R)) => //; first [exact: two_ne | exact: D].
Qed.
End Half.

(* ---- the programs of the periodic boundaries ---- *)
Section Progs.
Variable R : realFieldType.
Variables (z : sizes) (w : phases R).
Local Notation U := (Uxh z).

Ltac members := rewrite ?inE; do ?case/orP; move/eqP.

(* the destinations of the x boundary are the planes 0 and isize + 1 *)
Definition on_x (h : bool) (a : asg R) : Prop := exists im c i j k,
  [/\ a.1 = (im, h, c, (i, j, k)), (i = 0 \/ i = (isize z).+1)%N,
      (1 <= j < pjsize z)%N & (1 <= k < pksize z)%N].
Definition on_y (h : bool) (a : asg R) : Prop := exists im c i j k,
  [/\ a.1 = (im, h, c, (i, j, k)), (j = 0 \/ j = (jsize z).+1)%N,
      (1 <= i < pisize z)%N & (1 <= k < pksize z)%N].

Lemma Ex_dst a : a \in E_periodic_x z w -> on_x false a.
Proof.
move=> /mem_loop2 [j [k [hj hk]]]; members => ->;
  do 5 eexists; split; rewrite ?addn1; try exact: erefl; auto.
Qed.
Lemma Hx_dst a : a \in H_periodic_x z w -> on_x true a.
Proof.
move=> /mem_loop2 [j [k [hj hk]]]; members => ->;
  do 5 eexists; split; rewrite ?addn1; try exact: erefl; auto.
Qed.
Lemma Ey_dst a : a \in E_periodic_y z w -> on_y false a.
Proof.
move=> /mem_loop2 [i [k [hi hk]]]; members => ->;
  do 5 eexists; split; rewrite ?addn1; try exact: erefl; auto.
Qed.
Lemma Hy_dst a : a \in H_periodic_y z w -> on_y true a.
Proof.
move=> /mem_loop2 [i [k [hi hk]]]; members => ->;
  do 5 eexists; split; rewrite ?addn1; try exact: erefl; auto.
Qed.

(* each destination is written with one right-hand side *)
Definition functional (prog : seq (asg R)) : Prop := forall d e e',
  (d, e) \in prog -> (d, e') \in prog -> e = e'.

Ltac fun_tac := 
  move=> d e e' /mem_loop2 [a [b [_ _ +]]] /mem_loop2 [a' [b' [_ _ +]]];
  members => -[-> ->]; members => -[]; try discriminate; by move=> -> -> ->.

Lemma Ex_fun : functional (E_periodic_x z w).
Proof. fun_tac. Qed.
Lemma Hx_fun : functional (H_periodic_x z w).
Proof. fun_tac. Qed.
Lemma Ey_fun : functional (E_periodic_y z w).
Proof. fun_tac. Qed.
Lemma Hy_fun : functional (H_periodic_y z w).
Proof. fun_tac. Qed.

Lemma EGx_dst a : a \in E_Gamma_x R z -> on_x false a.
Proof.
move=> /mem_loop2 [j [k [hj hk]]]; members => ->;
  do 5 eexists; split; rewrite ?addn1; try exact: erefl; auto.
Qed.
Lemma HGx_dst a : a \in H_Gamma_x R z -> on_x true a.
Proof.
move=> /mem_loop2 [j [k [hj hk]]]; members => ->;
  do 5 eexists; split; rewrite ?addn1; try exact: erefl; auto.
Qed.
Lemma EGy_dst a : a \in E_Gamma_y R z -> on_y false a.
Proof.
move=> /mem_loop2 [i [k [hi hk]]]; members => ->;
  do 5 eexists; split; rewrite ?addn1; try exact: erefl; auto.
Qed.
Lemma HGy_dst a : a \in H_Gamma_y R z -> on_y true a.
Proof.
move=> /mem_loop2 [i [k [hi hk]]]; members => ->;
  do 5 eexists; split; rewrite ?addn1; try exact: erefl; auto.
Qed.
Lemma EGx_fun : functional (E_Gamma_x R z).
Proof. fun_tac. Qed.
Lemma HGx_fun : functional (H_Gamma_x R z).
Proof. fun_tac. Qed.
Lemma EGy_fun : functional (E_Gamma_y R z).
Proof. fun_tac. Qed.
Lemma HGy_fun : functional (H_Gamma_y R z).
Proof. fun_tac. Qed.

(* the triangular wall *)
Lemma U_le : (U + U <= isize z)%N.
Proof. by rewrite addnn /Uxh -{2}(odd_double_half (isize z)) leq_addl. Qed.
Lemma U_even : ~~ odd (isize z) -> (U + U = isize z)%N.
Proof. by move=> h; rewrite addnn /Uxh -{2}(odd_double_half (isize z)) (negbTE h). Qed.

(* the two loops: i runs over the cells below the wall, f over those above *)
Definition low (i f : nat) : Prop := (1 <= i < pisize z - U)%N /\ f = (i + U)%N.
Definition upp (i f : nat) : Prop := (pisize z - U <= i < pisize z)%N /\ f = (i - U)%N.
Hypothesis hp : pisize z = (isize z).+1.

Lemma low_rng i f : low i f -> (1 <= i < pisize z)%N /\ (U < f < pisize z)%N.
Proof.
case=> [/andP [h1 h2] ->]; rewrite h1 (leq_trans h2 (leq_subr _ _)) /=.
by rewrite -{1}[U]add0n ltn_add2r h1 /= addnC -ltn_subRL.
Qed.
Lemma upp_rng i f : upp i f -> (1 <= i < pisize z)%N /\ (1 <= f)%N /\ (f + U = i)%N /\
  (f <= isize z - U)%N.
Proof.
case=> [/andP [h1 h2] ->].
have h3 : (U < i)%N.
  by apply: leq_trans h1; rewrite hp ltn_subRL ltnS U_le.
split; first by rewrite h2 (leq_ltn_trans (leq0n _) h3).
split; first by rewrite subn_gt0.
split; first by rewrite subnK // ltnW.
by apply: leq_sub2r; rewrite hp ltnS in h2.
Qed.

(* pairs that are used by one of the loops, with the phase they get *)
Inductive used : nat -> nat -> R -> R -> Prop :=
| used_low i f : low i f -> used i f (cos_1 w) (sin_1 w)
| used_upp i f : upp i f -> used i f (cos_2 w) (sin_2 w).

Lemma used_rng i f c s : used i f c s -> (1 <= i < pisize z)%N /\ (1 <= f < pisize z)%N.
Proof.
case=> {i f c s} i f h.
  by have [-> /andP [h1 ->]] := low_rng h; rewrite (leq_ltn_trans (leq0n _) h1).
have [-> [-> [e h1]]] := upp_rng h; split=> //=; rewrite hp ltnS.
exact: leq_trans h1 (leq_subr _ _).
Qed.
Lemma used_i i f f' c s c' s' : used i f c s -> used i f' c' s' -> [/\ f = f', c = c' & s = s'].
Proof.
move=> h h'; case: h h' => {i f c s} i f h h'; inversion h' as [i1 f1 g e1|i1 f1 g e1]; subst.
- by case: h g => [_ ->] [_ ->].
- case: h g => [/andP [_ h] _] [/andP [g _] _].
  by have := leq_trans h g; rewrite ltnn.
- case: h g => [/andP [h _] _] [/andP [_ g] _].
  by have := leq_trans g h; rewrite ltnn.
- by case: h g => [_ ->] [_ ->].
Qed.
Lemma used_f i i' f c s c' s' : ~~ odd (isize z) ->
  used i f c s -> used i' f c' s' -> [/\ i = i', c = c' & s = s'].
Proof.
move=> ho h h'; case: h h' => {i f c s} i f h h'; inversion h' as [i1 f1 g e1|i1 f1 g e1]; subst.
- by case: h g => [_ ->] [_ /addIn ->].
- have [_ [_ [_ g1]]] := upp_rng g; have [_ /andP [h1 _]] := low_rng h.
  by move: (leq_trans h1 g1); rewrite -(U_even ho) addnK ltnn.
- have [_ [_ [_ g1]]] := upp_rng h; have [_ /andP [h1 _]] := low_rng g.
  by move: (leq_trans h1 g1); rewrite -(U_even ho) addnK ltnn.
- have [_ [_ [<- _]]] := upp_rng h; have [_ [_ [<- _]]] := upp_rng g.
  by [].
Qed.

Lemma mem_wall (body : R -> R -> nat -> nat -> nat -> seq (asg R)) a :
  a \in loop2 (pisize z - U) (pksize z) (fun i k => body (cos_1 w) (sin_1 w) i (i + U)%N k) ++
        loop2_from (pisize z - U) (pisize z) (pksize z)
          (fun i k => body (cos_2 w) (sin_2 w) i (i - U)%N k) <->
  exists i f k c s, [/\ used i f c s, (1 <= k < pksize z)%N & a \in body c s i f k].
Proof.
rewrite mem_cat; split.
  case/orP => [/mem_loop2|/mem_loop2f] [i [k [hi hk h]]].
    by exists i, (i + U)%N, k, (cos_1 w), (sin_1 w); split=> //; apply: used_low.
  by exists i, (i - U)%N, k, (cos_2 w), (sin_2 w); split=> //; apply: used_upp.
case=> i [f [k [c [s [hu hk h]]]]]; apply/orP.
case: hu h => {i f c s} i f [hi ->] h; [left; apply/mem_loop2|right; apply/mem_loop2f];
  by exists i, k.
Qed.

Lemma Ewall_dst a : a \in E_periodic_Ywall z w -> on_y false a.
Proof.
move/mem_wall => [i [f [k [c [s [/used_rng [hi hf] hk]]]]]]; members => ->;
  do 5 eexists; split; rewrite ?addn1; try exact: erefl; auto.
Qed.
Lemma Hwall_dst a : a \in H_periodic_Ywall z w -> on_y true a.
Proof.
move/mem_wall => [i [f [k [c [s [/used_rng [hi hf] hk]]]]]]; members => ->;
  do 5 eexists; split; rewrite ?addn1; try exact: erefl; auto.
Qed.
Lemma EGwall_dst a : a \in E_Gamma_Ywall R z -> on_y false a.
Proof.
move/(mem_wall (fun _ _ => @E_GYwall_body R z)) => [i [f [k [c [s [/used_rng [hi hf] hk]]]]]];
  members => ->; do 5 eexists; split; rewrite ?addn1; try exact: erefl; auto.
Qed.
Lemma HGwall_dst a : a \in H_Gamma_Ywall R z -> on_y true a.
Proof.
move/(mem_wall (fun _ _ => @H_GYwall_body R z)) => [i [f [k [c [s [/used_rng [hi hf] hk]]]]]];
  members => ->; do 5 eexists; split; rewrite ?addn1; try exact: erefl; auto.
Qed.

Hypothesis heven : ~~ odd (isize z).
Ltac wall_tac := move=> d e e' [i [f [k [c [s [hu _ +]]]]]] [i' [f' [k' [c' [s' [hu' _ +]]]]]];
  members => -[-> ->]; members => -[]; try discriminate;
  (move=> ? ? ->; subst; first
    [ by have [<- <- <-] := used_i hu hu' | by have [<- <- <-] := used_f heven hu hu'
    | by have [<- _ _] := used_i hu hu' | by have [<- _ _] := used_f heven hu hu' ]).
Lemma Ewall_fun : functional (E_periodic_Ywall z w).
Proof. by move=> d e e' /mem_wall + /mem_wall; move: d e e'; wall_tac. Qed.
Lemma Hwall_fun : functional (H_periodic_Ywall z w).
Proof. by move=> d e e' /mem_wall + /mem_wall; move: d e e'; wall_tac. Qed.
Lemma EGwall_fun : functional (E_Gamma_Ywall R z).
Proof.
move=> d e e' /(mem_wall (fun _ _ => @E_GYwall_body R z)) + /(mem_wall (fun _ _ => @E_GYwall_body R z)).
by move: d e e'; wall_tac.
Qed.
Lemma HGwall_fun : functional (H_Gamma_Ywall R z).
Proof.
move=> d e e' /(mem_wall (fun _ _ => @H_GYwall_body R z)) + /(mem_wall (fun _ _ => @H_GYwall_body R z)).
by move: d e e'; wall_tac.
Qed.
End Progs.

(* ---- both boundaries together ---- *)
Section Bnd.
Variable R : realFieldType.
Variables (z : sizes) (h : bool) (px py : seq (asg R)).
Hypothesis dx : forall a, a \in px -> on_x z h a.
Hypothesis dy : forall a, a \in py -> on_y z h a.
Hypothesis sx : forall a, a \in px -> pisize z = (isize z).+1.
Hypothesis sy : forall a, a \in py -> pjsize z = (jsize z).+1.
Hypothesis fx_ : functional px.
Hypothesis fy_ : functional py.

Definition inner (l : loc) : Prop :=
  interior (pisize z) (pjsize z) (pksize z) l.2.1.1 l.2.1.2 l.2.2.

Lemma bnd_dst a l : a \in px ++ py -> inner l -> a.1 <> l.
Proof.
rewrite mem_cat => /orP [ha|ha] hi e.
- have [im [c [i [j [k [e1 hx _ _]]]]]] := dx ha.
  move: hi; rewrite /inner -e e1 /= => -[]; rewrite (sx ha).
  by case: hx => ->; rewrite ?ltnn ?andbF.
- have [im [c [i [j [k [e1 hx _ _]]]]]] := dy ha.
  move: hi; rewrite /inner -e e1 /= => -[_ []]; rewrite (sy ha).
  by case: hx => ->; rewrite ?ltnn ?andbF.
Qed.

Lemma bnd_fun : functional (px ++ py).
Proof.
have sep d e e' : (d, e) \in px -> (d, e') \in py -> False.
  move=> h1 h2; have [im [c [i [j [k [/= e1 hx hj _]]]]]] := dx h1.
  have [im' [c' [i' [j' [k' [/= e2 hy hi' _]]]]]] := dy h2.
  move: hj; rewrite e1 in e2; case: e2 => _ _ e3 e4 _; rewrite e4 (sy h2).
  by case: hy => ->; rewrite ?ltnn ?andbF.
move=> d e e'; rewrite !mem_cat => /orP [h1|h1] /orP [h2|h2].
- exact: fx_ h1 h2.
- by case: (sep _ _ _ h1 h2).
- by case: (sep _ _ _ h2 h1).
- exact: fy_ h1 h2.
Qed.

Lemma bnd_keep S l : inner l -> get (exec (px ++ py) S) l = get S l.
Proof. by move=> hi; apply: exec_out => a ha; apply: bnd_dst. Qed.

Lemma bnd_val S d e : (d, e) \in px ++ py -> (forall t, t \in e -> inner t.2) ->
  get (exec (px ++ py) S) d = rhs S e.
Proof.
move=> hd he; apply: exec_in => // [a ha e1|a t ha ht].
- by apply: bnd_fun hd; rewrite -e1 -surjective_pairing.
- by apply: bnd_dst => //; exact: he.
Qed.

Lemma bnd_array a : a \in px ++ py -> a.1.1.1.2 = h.
Proof.
rewrite mem_cat => /orP [/dx|/dy] [im [c [i [j [k [-> _ _ _]]]]]];  by [].
Qed.
End Bnd.

Section Seam.
Variable R : realFieldType.
Variables (p : par R) (z : sizes) (w : phases R).
Local Notation pi := (pisize z).
Local Notation pj := (pjsize z).
Local Notation pk := (pksize z).
Local Notation int_ := (interior pi pj pk).

Lemma rhs2 (S : cst R) a l b m : rhs S [:: (a, l); (b, m)] = a * get S l + b * get S m.
Proof. by rewrite /rhs !big_cons big_nil addr0. Qed.
Lemma rhs1 (S : cst R) a l : rhs S [:: (a, l)] = a * get S l.
Proof. by rewrite /rhs !big_cons big_nil addr0. Qed.

(* the arrays an update leaves alone *)
Lemma halfE_keeps (S : cst R) im :
  let s := if im then cim S else cre S in
  let t := if im then cim (E_half p z w S) else cre (E_half p z w S) in
  fH t = fH s /\ fB t = fB s.
Proof.
case: im => /=; last by have [[-> ->] _] := sweepE p (cre S) (uniq_cells pi pj pk).
case: ifP => _ //.
by have [[-> ->] _] := sweepiE p (cim S) (uniq_cells pi pj pk).
Qed.
Lemma halfH_keeps (S : cst R) im :
  let s := if im then cim S else cre S in
  let t := if im then cim (H_half p z w S) else cre (H_half p z w S) in
  [/\ fE t = fE s, fD t = fD s & fJ t = fJ s].
Proof.
case: im => /=; last by have [[-> -> ->] _] := sweepH p (cre S) (uniq_cells pi pj pk).
case: ifP => _ //.
by have [[-> -> ->] _] := sweepH p (cim S) (uniq_cells pi pj pk).
Qed.

Lemma v3_get (S : cst R) (im h : bool) i j k (S' : cst R) :
  (forall c, get S (im, h, c, (i, j, k)) = get S' (im, h, c, (i, j, k))) ->
  (if h then fH (if im then cim S else cre S) i j k else fE (if im then cim S else cre S) i j k) =
  (if h then fH (if im then cim S' else cre S') i j k else fE (if im then cim S' else cre S') i j k).
Proof.
move=> hc; have := hc None; have := hc (Some false); have := hc (Some true); rewrite /get /comp.
by case: h hc => _; do 2 case: (_ i j k) => ? ? ? /=; move=> -> -> ->.
Qed.

(* one step whose boundary programs write neither the good inner cells nor the
   arrays of the other field: the equations hold in all the good inner cells *)
Section Step.
Variables (EB HB : seq (asg R)).
Hypothesis eE : forall a, a \in EB -> a.1.1.1.2 = false.
Hypothesis eH : forall a, a \in HB -> a.1.1.1.2 = true.
Variable good : nat -> nat -> nat -> Prop.
Hypothesis kE : forall S l, inner z l -> good l.2.1.1 l.2.1.2 l.2.2 -> get (exec EB S) l = get S l.
Hypothesis kH : forall S l, inner z l -> good l.2.1.1 l.2.1.2 l.2.2 -> get (exec HB S) l = get S l.
Hypothesis hok : forall i j k, int_ i j k -> cell_ok p i j k.

Let step (S : cst R) := exec HB (H_half p z w (exec EB (E_half p z w S))).
Definition part (im : bool) (S : cst R) : state R := if im then cim S else cre S.
Definition live (im : bool) : Prop :=
  im -> complex z w /\ forall i j k, int_ i j k -> mepsilon p i j k <> 100%:R.

Lemma step_laws im S i j k : live im -> int_ i j k -> good i j k ->
  laws p (part im S) (part im (step S)) i j k.
Proof.
move=> hl hi hg; rewrite /step.
set S1 := E_half p z w S; set S2 := exec EB S1; set S3 := H_half p z w S2.
have e1 : part im S1 = sweep (E_cell p) (cells pi pj pk) (part im S).
  case: im hl => hl //; have [h1 h2] := hl isT.
  by rewrite /S1 /part /= h1 sweep_no_mol.
have e3 : part im S3 = sweep (H_cell p) (cells pi pj pk) (part im S2).
  case: im hl {e1} => hl //; have [h1 h2] := hl isT.
  by rewrite /S3 /part /= h1.
have [h1 d1 b1 j1] := exec_keeps S1 eE im.
have [h3 d3 b3 j3] := exec_keeps S3 eH im.
have [aE aD aJ] := halfH_keeps S2 im.
have [aH aB] := halfE_keeps S im.
rewrite -/S1 -/S2 -/S3 -!/(part im _) in h1 d1 b1 j1 h3 d3 b3 j3 aE aD aJ aH aB.
have E4 : fE (part im (exec HB S3)) = fE (part im S2) by rewrite h3 aE.
have D4 : fD (part im (exec HB S3)) = fD (part im S1) by rewrite d3 aD d1.
have J4 : fJ (part im (exec HB S3)) = fJ (part im S1) by rewrite j3 aJ j1.
have H2 : fH (part im S2) = fH (part im S) by rewrite h1 aH.
have B2 : fB (part im S2) = fB (part im S) by rewrite b1 aB.
have E21 : fE (part im S2) i j k = fE (part im S1) i j k.
  by apply: (@v3_get S2 im false) => c; apply: kE.
have H43 : fH (part im (exec HB S3)) i j k = fH (part im S3) i j k.
  by apply: (@v3_get (exec HB S3) im true) => c; apply: kH.
have B43 : fB (part im (exec HB S3)) = fB (part im S3) by rewrite b3.
split.
- have := sweepE_law (part im S) hi (hok hi).
  rewrite -e1 /electric_law /ampere /drude /layer_E /mean.
  rewrite /cx /cy /cz E4 E21 D4 J4 => -[l1 [l2 [l3 l4]]].
  split=> //; split=> // hm; have [l5 l6] := l2 hm; split=> // cmp hc.
  have := l6 cmp hc; have -> // : cmp (fE (part im S2)) i j k = cmp (fE (part im S1)) i j k.
  by case: hc => [->|[->|->]]; rewrite ?E21.
- have := sweepH_law (part im S2) hi (hok hi).
  rewrite -e3 /= /magnetic_law /faraday /layer_H /cx /cy /cz.
  by rewrite E4 H43 H2 B2 B43.
Qed.
End Step.
End Seam.
