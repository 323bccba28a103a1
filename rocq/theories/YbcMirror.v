(* Proofs about the mirror planes of YbcModel. *)
From mathcomp Require Import all_ssreflect all_algebra.
From Verif Require Import YeeModel YeeSpec YeeProofs YbcModel YbcSpec YbcProg.
Set Implicit Arguments.
Unset Strict Implicit.
Unset Printing Implicit Defensive.
Import GRing.Theory Num.Theory.
Local Open Scope ring_scope.

Section Mirror.
Variable R : realFieldType.
Variables (p : par R) (z : sizes) (w : phases R) (d : dir) (even : bool).
Hypothesis hm : one_mirror d even z.
Local Notation pi := (pisize z).
Local Notation pj := (pjsize z).
Local Notation pk := (pksize z).
Local Notation int_ := (interior pi pj pk).
Local Notation c := (plane d z).

Definition cname (e : dir) : option bool := match e with DX => Lx | DY => Ly | DZ => Lz end.
Definition L (h : bool) (e : dir) (n a b : nat) : loc :=
  (false, h, cname e, on_plane d (fun i j k => (i, j, k)) n a b).

Lemma getE S e n a b : get S (L false e n a b) = on_plane d (normal e (@fE R (cre S))) n a b.
Proof. by rewrite /L; case: d; case: e. Qed.
Lemma getH S e n a b : get S (L true e n a b) = on_plane d (normal e (@fH R (cre S))) n a b.
Proof. by rewrite /L; case: d; case: e. Qed.

Lemma cname_inj : injective cname.
Proof. by case; case. Qed.
Lemma dirP (e f : dir) : e = f \/ e <> f.
Proof. by case: e; case: f; by [left|right]. Qed.

Lemma L_inj h e n a b h' e' n' a' b' : L h e n a b = L h' e' n' a' b' ->
  [/\ h = h', e = e', n = n', a = a' & b = b'].
Proof. by rewrite /L; case: d => /= -[-> /cname_inj -> -> -> ->]. Qed.

(* the cells of the plane that are written *)
Definition rng (a b : nat) : Prop :=
  match d with
  | DX => (1 <= a < pj)%N /\ (1 <= b < pk)%N
  | DY => (1 <= a < pi)%N /\ (1 <= b < pk)%N
  | DZ => (1 <= a < pi)%N /\ (1 <= b < pj)%N
  end.
Lemma rngP a b : rng a b \/ ~ rng a b.
Proof.
rewrite /rng; case: d.
- case: (boolP (1 <= a < pj)%N) => h; last by right; case.
  by case: (boolP (1 <= b < pk)%N) => h'; [left|right; case].
- case: (boolP (1 <= a < pi)%N) => h; last by right; case.
  by case: (boolP (1 <= b < pk)%N) => h'; [left|right; case].
- case: (boolP (1 <= a < pi)%N) => h; last by right; case.
  by case: (boolP (1 <= b < pj)%N) => h'; [left|right; case].
Qed.

Lemma int_plane n a b :
  on_plane d int_ n a b <-> (1 <= n < limit d z)%N /\ rng a b.
Proof. by rewrite /interior /rng; case: d => /=; tauto. Qed.

Definition isE (a b : nat) (x : asg R) : Prop :=
  if even then x = copy R (L false d c a b) (L false d c.-1 a b) \/
               exists e, e <> d /\ x = zero R (L false e c a b)
  else x = mirror R (L false d c a b) (L false d c.-1 a b).
Definition isH (a b : nat) (x : asg R) : Prop :=
  (exists e, e <> d /\ x = (if even then copy R else mirror R) (L true e c a b) (L true e c.-1 a b)) \/
  (even /\ x = zero R (L true d c a b)).

Lemma memE x : x \in Ez_parity_update R z false <-> exists a b, rng a b /\ isE a b x.
Proof.
have [h1 h2 _ _ _] := hm; rewrite /isE /rng /L /Ez_parity_update.
have i0 : (0 == 1 :> int) = false by [].
have i1 : (0 == -1 :> int) = false by [].
have i2 : (-1 == 1 :> int) = false by [].
have i3 : (1 == -1 :> int) = false by [].
move: h1 h2; case: d => /= h1 h2.
- have := h2 DY ltac:(by []); have := h2 DZ ltac:(by []) => /= -> ->; rewrite h1 i0 i1 !cats0.
  case: even => //=; rewrite ?eqxx ?i2 ?i3 ?cats0 ?cat0s.
  + split=> [/mem_loop2 [a [b [ha hb]]]|[a [b [[ha hb] h]]]].
    * rewrite !inE subn1 => /orP [/eqP ->|/orP [] /eqP ->]; exists a, b; split=> //; [left|right|right] => //.
      by exists DY. by exists DZ.
    * apply/mem_loop2; exists a, b; split=> //; rewrite !inE subn1.
      case: h => [->|[[] [he ->]]] //; by rewrite eqxx ?orbT.
  + split=> [/mem_loop2 [a [b [ha hb]]]|[a [b [[ha hb] ->]]]].
    * by rewrite !inE subn1 => /eqP ->; exists a, b.
    * by apply/mem_loop2; exists a, b; split=> //; rewrite !inE subn1.
- have := h2 DX ltac:(by []); have := h2 DZ ltac:(by []) => /= -> ->; rewrite h1 i0 i1 !cats0 !cat0s.
  case: even => //=; rewrite ?eqxx ?i2 ?i3 ?cats0 ?cat0s.
  + split=> [/mem_loop2 [b [a [hb ha]]]|[a [b [[ha hb] h]]]].
    * rewrite !inE subn1 => /orP [/eqP ->|/orP [] /eqP ->]; exists a, b; split=> //; [left|right|right] => //.
      by exists DX. by exists DZ.
    * apply/mem_loop2; exists b, a; split=> //; rewrite !inE subn1.
      case: h => [->|[[] [he ->]]] //; by rewrite eqxx ?orbT.
  + split=> [/mem_loop2 [b [a [hb ha]]]|[a [b [[ha hb] ->]]]].
    * by rewrite !inE subn1 => /eqP ->; exists a, b.
    * by apply/mem_loop2; exists b, a; split=> //; rewrite !inE subn1.
- have := h2 DX ltac:(by []); have := h2 DY ltac:(by []) => /= -> ->; rewrite h1 i0 i1 !cat0s.
  case: even => //=; rewrite ?eqxx ?i2 ?i3 ?cats0 ?cat0s.
  + split=> [/mem_loop2 [a [b [ha hb]]]|[a [b [[ha hb] h]]]].
    * rewrite !inE subn1 => /orP [/eqP ->|/orP [] /eqP ->]; exists a, b; split=> //; [left|right|right] => //.
      by exists DX. by exists DY.
    * apply/mem_loop2; exists a, b; split=> //; rewrite !inE subn1.
      case: h => [->|[[] [he ->]]] //; by rewrite eqxx ?orbT.
  + split=> [/mem_loop2 [a [b [ha hb]]]|[a [b [[ha hb] ->]]]].
    * by rewrite !inE subn1 => /eqP ->; exists a, b.
    * by apply/mem_loop2; exists a, b; split=> //; rewrite !inE subn1.
Qed.

Lemma memH x : x \in Hz_parity_update R z false <-> exists a b, rng a b /\ isH a b x.
Proof.
have [h1 h2 _ _ _] := hm; rewrite /isH /rng /L /Hz_parity_update.
have i0 : (0 == 1 :> int) = false by [].
have i1 : (0 == -1 :> int) = false by [].
have i2 : (-1 == 1 :> int) = false by [].
have i3 : (1 == -1 :> int) = false by [].
move: h1 h2; case: d => /= h1 h2.
- have := h2 DY ltac:(by []); have := h2 DZ ltac:(by []) => /= -> ->; rewrite h1 i0 i1 !cats0.
  case: even => //=; rewrite ?eqxx ?i2 ?i3 ?cats0 ?cat0s.
  + split=> [/mem_loop2 [a [b [ha hb]]]|[a [b [[ha hb] h]]]].
    * rewrite !inE subn1 => /orP [/eqP ->|/orP [] /eqP ->]; exists a, b; split=> //; [left|left|right] => //.
      by exists DY. by exists DZ.
    * apply/mem_loop2; exists a, b; split=> //; rewrite !inE subn1.
      case: h => [[[] [he ->]]|[_ ->]] //; by rewrite eqxx ?orbT.
  + split=> [/mem_loop2 [a [b [ha hb]]]|[a [b [[ha hb] h]]]].
    * rewrite !inE subn1 => /orP [] /eqP ->; exists a, b; split=> //; left; by [exists DY|exists DZ].
    * apply/mem_loop2; exists a, b; split=> //; rewrite !inE subn1.
      case: h => [[[] [he ->]]|[//]] //; by rewrite eqxx ?orbT.
- have := h2 DX ltac:(by []); have := h2 DZ ltac:(by []) => /= -> ->; rewrite h1 i0 i1 !cats0 !cat0s.
  case: even => //=; rewrite ?eqxx ?i2 ?i3 ?cats0 ?cat0s.
  + split=> [/mem_loop2 [b [a [hb ha]]]|[a [b [[ha hb] h]]]].
    * rewrite !inE subn1 => /orP [/eqP ->|/orP [] /eqP ->]; exists a, b; split=> //; [left|left|right] => //.
      by exists DZ. by exists DX.
    * apply/mem_loop2; exists b, a; split=> //; rewrite !inE subn1.
      case: h => [[[] [he ->]]|[_ ->]] //; by rewrite eqxx ?orbT.
  + split=> [/mem_loop2 [b [a [hb ha]]]|[a [b [[ha hb] h]]]].
    * rewrite !inE subn1 => /orP [] /eqP ->; exists a, b; split=> //; left; by [exists DZ|exists DX].
    * apply/mem_loop2; exists b, a; split=> //; rewrite !inE subn1.
      case: h => [[[] [he ->]]|[//]] //; by rewrite eqxx ?orbT.
- have := h2 DX ltac:(by []); have := h2 DY ltac:(by []) => /= -> ->; rewrite h1 i0 i1 !cat0s.
  case: even => //=; rewrite ?eqxx ?i2 ?i3 ?cats0 ?cat0s.
  + split=> [/mem_loop2 [a [b [ha hb]]]|[a [b [[ha hb] h]]]].
    * rewrite !inE subn1 => /orP [/eqP ->|/orP [] /eqP ->]; exists a, b; split=> //; [left|left|right] => //.
      by exists DX. by exists DY.
    * apply/mem_loop2; exists a, b; split=> //; rewrite !inE subn1.
      case: h => [[[] [he ->]]|[_ ->]] //; by rewrite eqxx ?orbT.
  + split=> [/mem_loop2 [a [b [ha hb]]]|[a [b [[ha hb] h]]]].
    * rewrite !inE subn1 => /orP [] /eqP ->; exists a, b; split=> //; left; by [exists DX|exists DY].
    * apply/mem_loop2; exists a, b; split=> //; rewrite !inE subn1.
      case: h => [[[] [he ->]]|[//]] //; by rewrite eqxx ?orbT.
Qed.

Lemma EB_eq tri : E_boundary z w tri = Ez_parity_update R z false.
Proof.
by have [_ _ _ _ [hx hy]] := hm; rewrite /E_boundary /complex hx hy /= cats0.
Qed.
Lemma HB_eq tri : H_boundary z w tri = Hz_parity_update R z false.
Proof.
by have [_ _ _ _ [hx hy]] := hm; rewrite /H_boundary /complex hx hy /= cats0.
Qed.

Local Notation EB := (Ez_parity_update R z false).
Local Notation HB := (Hz_parity_update R z false).

(* every destination is in the plane c and in range *)
Lemma dstE x : x \in EB -> exists e a b, [/\ rng a b, x.1 = L false e c a b & ~ even -> e = d].
Proof.
case/memE => a [b [hr]]; rewrite /isE; case: ifP => he.
  case=> [->|[e [h ->]]]; first by exists d, a, b.
  by exists e, a, b; split=> // h'; case: h'.
by move=> ->; exists d, a, b.
Qed.
Lemma dstH x : x \in HB -> exists e a b, [/\ rng a b, x.1 = L true e c a b & ~ even -> e <> d].
Proof.
case/memH => a [b [hr]]; case=> [[e [h ->]]|[h ->]].
  by exists e, a, b; split=> //; case: ifP.
by exists d, a, b; split=> // h'; case: h'.
Qed.

Lemma outE S n a b e : n <> c \/ ~ rng a b \/ (~ even /\ e <> d) ->
  get (exec EB S) (L false e n a b) = get S (L false e n a b).
Proof.
move=> h; apply: exec_out => x /dstE [e' [a' [b' [hr -> he]]]] /L_inj [_ e1 e2 e3 e4].
by case: h => [|[|[h1 h2]]]; subst => //; apply: h2; exact: he.
Qed.
Lemma outH S n a b e : n <> c \/ ~ rng a b \/ (~ even /\ e = d) ->
  get (exec HB S) (L true e n a b) = get S (L true e n a b).
Proof.
move=> h; apply: exec_out => x /dstH [e' [a' [b' [hr -> he]]]] /L_inj [_ e1 e2 e3 e4].
by case: h => [|[|[h1 h2]]]; subst => //; case: (he h1).
Qed.

Lemma c_pred : c.-1 <> c.
Proof. by case: hm => _ _ _; case: (plane d z) => // n _ _ /= /n_Sn. Qed.

Lemma funE x y : x \in EB -> y \in EB -> x.1 = y.1 -> x.2 = y.2.
Proof.
move=> /memE [a [b [_ h]]] /memE [a' [b' [_ h']]]; move: h h'; rewrite /isE; case: ifP => he.
  case=> [->|[e [h ->]]]; case=> [->|[e' [h' ->]]] /= /L_inj [_ e1 _ e2 e3]; subst => //.
by move=> -> -> /= /L_inj [_ _ _ -> ->].
Qed.
Lemma funH x y : x \in HB -> y \in HB -> x.1 = y.1 -> x.2 = y.2.
Proof.
move=> /memH [a [b [_ h]]] /memH [a' [b' [_ h']]]; move: h h'.
case=> [[e [h ->]]|[h ->]]; case=> [[e' [h' ->]]|[h' ->]]; try case: ifP => _;
  by move=> /= /L_inj [_ e1 _ e2 e3]; subst.
Qed.

Definition sgn : R := if even then 1 else -1.

Lemma valE S a b : rng a b -> get (exec EB S) (L false d c a b) = sgn * get S (L false d c.-1 a b).
Proof.
move=> hr; rewrite -rhs1; apply: exec_in => [|x hx e|x t hx].
- apply/memE; exists a, b; split=> //; rewrite /isE /sgn; case: (even) => //; by left.
- apply: (@funE x (L false d c a b, [:: (sgn, L false d c.-1 a b)])) => //.
  by apply/memE; exists a, b; split=> //; rewrite /isE /sgn; case: (even) => //; left.
- rewrite inE => /eqP -> /=; have [e' [a' [b' [_ -> _]]]] := dstE hx.
  by move=> /L_inj [_ _ h _ _]; case: c_pred.
Qed.
Lemma zeroE S a b e : even -> e <> d -> rng a b -> get (exec EB S) (L false e c a b) = 0.
Proof.
move=> hv he hr.
have hi : (L false e c a b, [::]) \in EB.
  by apply/memE; exists a, b; split=> //; rewrite /isE hv; right; exists e.
rewrite (@exec_in _ _ _ _ [::] hi) //; first by rewrite /rhs big_nil.
by move=> x hx h; apply: (funE hx hi).
Qed.
Lemma valH S a b e : e <> d -> rng a b ->
  get (exec HB S) (L true e c a b) = sgn * get S (L true e c.-1 a b).
Proof.
move=> he hr; rewrite -rhs1.
have hi : (L true e c a b, [:: (sgn, L true e c.-1 a b)]) \in HB.
  apply/memH; exists a, b; split=> //; left; exists e; split=> //.
  by rewrite /sgn; case: (even).
apply: exec_in => // [x hx h|x t hx]; first exact: (funH hx hi).
rewrite inE => /eqP -> /=; have [e' [a' [b' [_ -> _]]]] := dstH hx.
by move=> /L_inj [_ _ h _ _]; case: c_pred.
Qed.
Lemma zeroH S a b : even -> rng a b -> get (exec HB S) (L true d c a b) = 0.
Proof.
move=> hv hr.
have hi : (L true d c a b, [::]) \in HB.
  by apply/memH; exists a, b; split=> //; right.
rewrite (@exec_in _ _ _ _ [::] hi) //; first by rewrite /rhs big_nil.
by move=> x hx h; apply: (funH hx hi).
Qed.


(* outside the inner cells the half steps change nothing *)
Lemma sweepE_out s i j k : ~ int_ i j k ->
  fE (sweep (E_cell p) (cells pi pj pk) s) i j k = fE s i j k.
Proof.
move=> h; have [_ /(_ (i, j, k))] := sweepE p s (uniq_cells pi pj pk).
have -> : (i, j, k) \in cells pi pj pk = false by apply/negP => /mem_cells.
by rewrite /viewE /at_ /= => -[].
Qed.
Lemma sweepH_out s i j k : ~ int_ i j k ->
  fH (sweep (H_cell p) (cells pi pj pk) s) i j k = fH s i j k.
Proof.
move=> h; have [_ /(_ (i, j, k))] := sweepH p s (uniq_cells pi pj pk).
have -> : (i, j, k) \in cells pi pj pk = false by apply/negP => /mem_cells.
by rewrite /viewH /at_ /= => -[].
Qed.
Lemma halfE_out S n a b e : ~ on_plane d int_ n a b ->
  get (E_half p z w S) (L false e n a b) = get S (L false e n a b).
Proof.
rewrite !getE /E_half /=; case: d => /= h; case: e => /=; by rewrite /cx /cy /cz sweepE_out.
Qed.
Lemma halfH_out S n a b e : ~ on_plane d int_ n a b ->
  get (H_half p z w S) (L true e n a b) = get S (L true e n a b).
Proof.
rewrite !getH /H_half /=; case: d => /= h; case: e => /=; by rewrite /cx /cy /cz sweepH_out.
Qed.

Section Go.
Variables (tri : bool) (S : cst R).
Hypothesis hok : forall i j k, int_ i j k -> cell_ok p i j k.
Hypothesis hE : mirror_E d even c (fE (cre S)).
Hypothesis hH : mirror_H d even c (fH (cre S)).
Let S1 := E_half p z w S.
Let S2 := exec EB S1.
Let S3 := H_half p z w S2.
Let T := propagate_bc p z w tri S.

Lemma T_eq : T = exec HB S3.
Proof. by rewrite /T /propagate_bc EB_eq HB_eq. Qed.
Lemma arrE x : x \in EB -> x.1.1.1.2 = false.
Proof. by case/dstE => e [a [b [_ -> _]]]. Qed.
Lemma arrH x : x \in HB -> x.1.1.1.2 = true.
Proof. by case/dstH => e [a [b [_ -> _]]]. Qed.
Lemma T_E : fE (cre T) = fE (cre S2).
Proof.
rewrite T_eq; have [h3 _ _ _] := exec_keeps S3 arrH false.
by have [aE _ _] := @halfH_keeps R p z w S2 false; move: h3 => /= ->.
Qed.
Lemma S2_H : fH (cre S2) = fH (cre S).
Proof.
have [h1 _ _ _] := exec_keeps S1 arrE false.
by have [aH _] := @halfE_keeps R p z w S false; move: h1 => /= ->.
Qed.

Lemma mir_E : mirror_E d even c (fE (cre T)).
Proof.
move=> a b; rewrite T_E -!getE; have [m1 m2] := hE a b.
case: (rngP a b) => hr.
  split=> [|hv e he]; last by rewrite -getE; exact: zeroE.
  by rewrite valE // outE //; left; exact: c_pred.
have ho n : ~ on_plane d int_ n a b by case/int_plane.
split=> [|hv e he].
  by rewrite !outE ?halfE_out ?getE //; right; left.
by rewrite -getE outE ?halfE_out ?getE ?m2 //; right; left.
Qed.
Lemma mir_H : mirror_H d even c (fH (cre T)).
Proof.
move=> a b; rewrite T_eq; have [m1 m2] := hH a b.
case: (rngP a b) => hr.
  split=> [e he|hv]; last by rewrite -getH; exact: zeroH.
  by rewrite -!getH valH // outH //; left; exact: c_pred.
have ho n : ~ on_plane d int_ n a b by case/int_plane.
split=> [e he|hv].
  by rewrite -!getH !outH ?halfH_out ?getH ?S2_H ?m1 //; right; left.
by rewrite -getH outH ?halfH_out ?getH ?S2_H ?m2 //; right; left.
Qed.

Definition good (i j k : nat) : Prop := (match d with DX => i | DY => j | DZ => k end) <> c.
Lemma good_L h e (l : loc) : good l.2.1.1 l.2.1.2 l.2.2 -> l.1 = (false, h, cname e) ->
  exists n a b, n <> c /\ l = L h e n a b.
Proof.
case: l => l [[i j] k]; rewrite /good /L => + /= ->; case: d => /= hg.
- by exists i, j, k.
- by exists j, i, k.
- by exists k, i, j.
Qed.

Lemma mir_laws n a b : on_plane d int_ n a b -> n <> c -> on_plane d (laws p (cre S) (cre T)) n a b.
Proof.
have other (P : seq (asg R)) h S' (l : loc) : (forall x, x \in P -> exists e a b, x.1 = L h e c a b) ->
  good l.2.1.1 l.2.1.2 l.2.2 -> get (exec P S') l = get S' l.
  move=> hP hg; apply: exec_out => x /hP [e' [a' [b' ->]]] hl; move: hg; rewrite -hl /good /L.
  by case: d => /=.
have kE S' l : inner z l -> good l.2.1.1 l.2.1.2 l.2.2 -> get (exec EB S') l = get S' l.
  by move=> _; apply: (other _ false) => x /dstE [e' [a' [b' [_ h _]]]]; exists e', a', b'.
have kH S' l : inner z l -> good l.2.1.1 l.2.1.2 l.2.2 -> get (exec HB S') l = get S' l.
  by move=> _; apply: (other _ true) => x /dstH [e' [a' [b' [_ h _]]]]; exists e', a', b'.
have go i j k : int_ i j k -> good i j k -> laws p (cre S) (cre T) i j k.
  by move=> hi hg; rewrite T_eq; exact: (@step_laws R p z w _ _ arrE arrH good kE kH hok false).
move=> hi hn; move: hi hn go; rewrite /good; case: d => /= hi hn; exact.
Qed.

Lemma ampere_dir s t i j k e :
  ampere (eo p) (dt p) (ds_x p) (ds_y p) (ds_nz p) (epsilon p) (fE s) (fE t) (fH s)
    (no_current R) i j k -> ampere_in e p s t i j k.
Proof. by case; case: e => h1 h2 h3; rewrite /ampere_in /= ?h1 ?h2 ?h3 subr0. Qed.
Lemma faraday_dir s t i j k e :
  faraday (uo p * ups p) (dt p) (ds_x p) (ds_y p) (ds_nz p) (fE t) (fH s) (fH t) i j k ->
  faraday_in e p s t i j k.
Proof. by case; case: e => h1 h2 h3; rewrite /faraday_in. Qed.

Lemma mir_plane a b : on_plane d int_ c a b -> on_plane d (vacuum_cell p) c a b ->
  (forall e, e <> d -> on_plane d (ampere_in e p (cre S) (cre T)) c a b) /\
  on_plane d (faraday_in d p (cre S) (cre T)) c a b.
Proof.
move=> hi hv; case: (boolP even) => [hev|/negP hodd].
  have z1 e x y : e <> d -> on_plane d (normal e (fE (cre T))) c x y = 0.
    by move=> h; have [_ ->] := mir_E x y.
  have z2 e x y : e <> d -> on_plane d (normal e (fE (cre S))) c x y = 0.
    by move=> h; have [_ ->] := hE x y.
  have z3 x y : on_plane d (normal d (fH (cre T))) c x y = 0 by have [_ ->] := mir_H x y.
  have z4 x y : on_plane d (normal d (fH (cre S))) c x y = 0 by have [_ ->] := hH x y.
  have z5 e x y : e <> d ->
    on_plane d (normal e (fH (cre S))) c x y = on_plane d (normal e (fH (cre S))) c.-1 x y.
    by move=> h; have [/(_ e h) -> _] := hH x y; rewrite hev mul1r.
  split=> [e he|].
    rewrite /ampere_in /bx /by_ /bz.
    move: z1 z2 z3 z4 z5 he; case: d; case: e => //= z1 z2 z3 z4 z5 he.
    - have /= y1 := z1 DY; have /= y2 := z2 DY; have /= y5 := z5 DZ;
      by rewrite y1 // y2 // !z4 y5 // !subrr !mulr0 !mul0r subrr.
    - have /= y1 := z1 DZ; have /= y2 := z2 DZ; have /= y5 := z5 DY;
      by rewrite y1 // y2 // !z4 y5 // !subrr !mulr0 !mul0r subrr.
    - have /= y1 := z1 DX; have /= y2 := z2 DX; have /= y5 := z5 DZ;
      by rewrite y1 // y2 // !z4 y5 // !subrr !mulr0 !mul0r subrr.
    - have /= y1 := z1 DZ; have /= y2 := z2 DZ; have /= y5 := z5 DX;
      by rewrite y1 // y2 // !z4 y5 // !subrr !mulr0 !mul0r subrr.
    - have /= y1 := z1 DX; have /= y2 := z2 DX; have /= y5 := z5 DY;
      by rewrite y1 // y2 // !z4 y5 // !subrr !mulr0 !mul0r subrr.
    - have /= y1 := z1 DY; have /= y2 := z2 DY; have /= y5 := z5 DX;
      by rewrite y1 // y2 // !z4 y5 // !subrr !mulr0 !mul0r subrr.
  rewrite /faraday_in /fx /fy /fz.
  move: z1 z3 z4; case: d => /= z1 z3 z4; rewrite !z3 !z4.
  - have /= y1 := z1 DZ; have /= y2 := z1 DY; by rewrite !y1 // !y2 // !subrr !mulr0 !mul0r subrr oppr0.
  - have /= y1 := z1 DX; have /= y2 := z1 DZ; by rewrite !y1 // !y2 // !subrr !mulr0 !mul0r subrr oppr0.
  - have /= y1 := z1 DX; have /= y2 := z1 DY; by rewrite !y1 // !y2 // !subrr !mulr0 !mul0r subrr oppr0.
have k1 e : e <> d ->
  on_plane d (normal e (fE (cre T))) c a b = on_plane d (normal e (fE (cre S1))) c a b.
  by move=> he; rewrite T_E -!getE outE //; right; right.
have k2 : on_plane d (normal d (fH (cre T))) c a b = on_plane d (normal d (fH (cre S3))) c a b.
  by rewrite T_eq -!getH outH //; right; right.
have a1 i j k e : int_ i j k -> vacuum_cell p i j k -> ampere_in e p (cre S) (cre S1) i j k.
  move=> h1 h2; apply: ampere_dir.
  by have [h _] := sweepE_law (cre S) h1 (hok h1); exact: h.
have f1 i j k e : int_ i j k -> vacuum_cell p i j k -> faraday_in e p (cre S2) (cre S3) i j k.
  move=> h1 h2; apply: faraday_dir.
  have [aE _ _] := @halfH_keeps R p z w S2 false.
  have [h _] := sweepH_law (cre S2) h1 (hok h1).
  by move: aE => /= ->; apply: h; left.
have eE3 : fE (cre S3) = fE (cre S2).
  by have [aE _ _] := @halfH_keeps R p z w S2 false.
split=> [e he|].
  have := k1 e he; have := a1; rewrite /ampere_in.
  move: hi hv; case: d => /= hi hv h ->; exact: h.
have := k2; have := f1; rewrite /faraday_in T_E eE3 S2_H.
by move: hi hv; case: d => /= hi hv h ->; [exact: (h _ _ _ DX hi hv)|exact: (h _ _ _ DY hi hv)|exact: (h _ _ _ DZ hi hv)].
Qed.
End Go.
End Mirror.
