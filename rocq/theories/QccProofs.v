(** Proofs about the amplitude equations of QED-CCSD: the contracts of QccSpec.v
    as rewriting rules, the reduction to finitely many configurations, and the
    lemmas that turn a computation on sums of terms into an equation between
    the arrays that two programs compute. *)
From Coq Require Import String Ascii.
From mathcomp Require Import all_ssreflect all_algebra.
From Verif Require Import QccModel QccCode QccSpec QccSym QccNorm QccDer.
Set Implicit Arguments.
Unset Strict Implicit.
Unset Printing Implicit Defensive.
Import GRing.Theory Num.Theory.
Local Open Scope ring_scope.
Local Open Scope string_scope.
Local Open Scope ring_scope.

Definition sw (n : string) (p : seq nat) (neg : bool) : rule := (n, p, neg, n).
Definition R : seq rule := [::
  ("I.oooo", [:: 1; 0; 2; 3]%N, true, "I.oooo");
  ("I.oooo", [:: 0; 1; 3; 2]%N, true, "I.oooo");
  ("I.vvvv", [:: 1; 0; 2; 3]%N, true, "I.vvvv");
  ("I.vvvv", [:: 0; 1; 3; 2]%N, true, "I.vvvv");
  ("I.oovv", [:: 1; 0; 2; 3]%N, true, "I.oovv");
  ("I.oovv", [:: 0; 1; 3; 2]%N, true, "I.oovv");
  ("I.vvoo", [:: 1; 0; 2; 3]%N, true, "I.vvoo");
  ("I.vvoo", [:: 0; 1; 3; 2]%N, true, "I.vvoo");
  ("I.vovo", [:: 1; 0; 3; 2]%N, false, "I.ovov");
  ("I.vovv", [:: 1; 0; 2; 3]%N, true, "I.ovvv");
  ("I.vvvo", [:: 0; 1; 3; 2]%N, true, "I.vvov");
  ("I.vooo", [:: 1; 0; 2; 3]%N, true, "I.ovoo");
  ("I.ooov", [:: 1; 0; 2; 3]%N, true, "I.ooov");
  ("I.ovvv", [:: 0; 1; 3; 2]%N, true, "I.ovvv");
  ("I.vvov", [:: 1; 0; 2; 3]%N, true, "I.vvov");
  ("I.ovoo", [:: 0; 1; 3; 2]%N, true, "I.ovoo");
  ("T2old", [:: 1; 0; 2; 3]%N, true, "T2old");
  ("T2old", [:: 0; 1; 3; 2]%N, true, "T2old");
  ("U2nold[0]", [:: 0; 2; 1; 3; 4]%N, true, "U2nold[0]");
  ("U2nold[0]", [:: 0; 1; 2; 4; 3]%N, true, "U2nold[0]");
  ("U2nold[1]", [:: 0; 1; 3; 2; 4; 5]%N, true, "U2nold[1]");
  ("U2nold[1]", [:: 0; 1; 2; 3; 5; 4]%N, true, "U2nold[1]");
  ("U2nold[1]", [:: 1; 0; 2; 3; 4; 5]%N, false, "U2nold[1]");
  ("U1nold[1]", [:: 1; 0; 2; 3]%N, false, "U1nold[1]");
  ("Snold[1]", [:: 1; 0]%N, false, "Snold[1]");
  ("h.oo", [:: 0; 1; 2]%N, false, "g.oo");
  ("h.ov", [:: 0; 1; 2]%N, false, "g.ov");
  ("h.vo", [:: 0; 1; 2]%N, false, "g.vo");
  ("h.vv", [:: 0; 1; 2]%N, false, "g.vv")].

Section Rules.
Variable F : fieldType.
Variable E : env F.

Fixpoint rules_hold (l : seq rule) : Prop :=
  match l with [::] => True | ru :: l' => rule_ok E ru /\ rules_hold l' end.
Lemma rules_holdP l : rules_hold l -> forall ru, ru \in l -> rule_ok E ru.
Proof.
elim: l => [|x l IH] //= [h1 h2] ru; rewrite inE => /orP [/eqP ->|] //; exact: IH.
Qed.

Lemma R_ok : arrays_ok E -> forall ru, ru \in R -> rule_ok E ru.
Proof.
move=> [[A [h1 h2 h]] [t1 t2 t3 t4] [p1 p2 p3 p4 p5] hc]; apply: rules_holdP.
rewrite /R.
split.
  move=> ix; case: ix => [|a ix] //; case: ix => [|b ix] //; case: ix => [|c ix] //; case: ix => [|d ix] //; case: ix => [|? ?] // _; by rewrite /permx /sg /= (h 0%N 0%N 0%N 0%N a b c d isT : E "I.oooo" _ = _) (h 0%N 0%N 0%N 0%N b a c d isT : E "I.oooo" _ = _) h1 mulN1r.
split.
  move=> ix; case: ix => [|a ix] //; case: ix => [|b ix] //; case: ix => [|c ix] //; case: ix => [|d ix] //; case: ix => [|? ?] // _; by rewrite /permx /sg /= (h 0%N 0%N 0%N 0%N a b c d isT : E "I.oooo" _ = _) (h 0%N 0%N 0%N 0%N a b d c isT : E "I.oooo" _ = _) h2 mulN1r.
split.
  move=> ix; case: ix => [|a ix] //; case: ix => [|b ix] //; case: ix => [|c ix] //; case: ix => [|d ix] //; case: ix => [|? ?] // _; by rewrite /permx /sg /= (h 1%N 1%N 1%N 1%N a b c d isT : E "I.vvvv" _ = _) (h 1%N 1%N 1%N 1%N b a c d isT : E "I.vvvv" _ = _) h1 mulN1r.
split.
  move=> ix; case: ix => [|a ix] //; case: ix => [|b ix] //; case: ix => [|c ix] //; case: ix => [|d ix] //; case: ix => [|? ?] // _; by rewrite /permx /sg /= (h 1%N 1%N 1%N 1%N a b c d isT : E "I.vvvv" _ = _) (h 1%N 1%N 1%N 1%N a b d c isT : E "I.vvvv" _ = _) h2 mulN1r.
split.
  move=> ix; case: ix => [|a ix] //; case: ix => [|b ix] //; case: ix => [|c ix] //; case: ix => [|d ix] //; case: ix => [|? ?] // _; by rewrite /permx /sg /= (h 0%N 0%N 1%N 1%N a b c d isT : E "I.oovv" _ = _) (h 0%N 0%N 1%N 1%N b a c d isT : E "I.oovv" _ = _) h1 mulN1r.
split.
  move=> ix; case: ix => [|a ix] //; case: ix => [|b ix] //; case: ix => [|c ix] //; case: ix => [|d ix] //; case: ix => [|? ?] // _; by rewrite /permx /sg /= (h 0%N 0%N 1%N 1%N a b c d isT : E "I.oovv" _ = _) (h 0%N 0%N 1%N 1%N a b d c isT : E "I.oovv" _ = _) h2 mulN1r.
split.
  move=> ix; case: ix => [|a ix] //; case: ix => [|b ix] //; case: ix => [|c ix] //; case: ix => [|d ix] //; case: ix => [|? ?] // _; by rewrite /permx /sg /= (h 1%N 1%N 0%N 0%N a b c d isT : E "I.vvoo" _ = _) (h 1%N 1%N 0%N 0%N b a c d isT : E "I.vvoo" _ = _) h1 mulN1r.
split.
  move=> ix; case: ix => [|a ix] //; case: ix => [|b ix] //; case: ix => [|c ix] //; case: ix => [|d ix] //; case: ix => [|? ?] // _; by rewrite /permx /sg /= (h 1%N 1%N 0%N 0%N a b c d isT : E "I.vvoo" _ = _) (h 1%N 1%N 0%N 0%N a b d c isT : E "I.vvoo" _ = _) h2 mulN1r.
split.
  move=> ix; case: ix => [|a ix] //; case: ix => [|b ix] //; case: ix => [|c ix] //; case: ix => [|d ix] //; case: ix => [|? ?] // _; by rewrite /permx /sg /= (h 1%N 0%N 1%N 0%N a b c d isT : E "I.vovo" _ = _) (h 0%N 1%N 0%N 1%N b a d c isT : E "I.ovov" _ = _) h1 h2 opprK mul1r.
split.
  move=> ix; case: ix => [|a ix] //; case: ix => [|b ix] //; case: ix => [|c ix] //; case: ix => [|d ix] //; case: ix => [|? ?] // _; by rewrite /permx /sg /= (h 1%N 0%N 1%N 1%N a b c d isT : E "I.vovv" _ = _) (h 0%N 1%N 1%N 1%N b a c d isT : E "I.ovvv" _ = _) h1 mulN1r.
split.
  move=> ix; case: ix => [|a ix] //; case: ix => [|b ix] //; case: ix => [|c ix] //; case: ix => [|d ix] //; case: ix => [|? ?] // _; by rewrite /permx /sg /= (h 1%N 1%N 1%N 0%N a b c d isT : E "I.vvvo" _ = _) (h 1%N 1%N 0%N 1%N a b d c isT : E "I.vvov" _ = _) h2 mulN1r.
split.
  move=> ix; case: ix => [|a ix] //; case: ix => [|b ix] //; case: ix => [|c ix] //; case: ix => [|d ix] //; case: ix => [|? ?] // _; by rewrite /permx /sg /= (h 1%N 0%N 0%N 0%N a b c d isT : E "I.vooo" _ = _) (h 0%N 1%N 0%N 0%N b a c d isT : E "I.ovoo" _ = _) h1 mulN1r.
split.
  move=> ix; case: ix => [|a ix] //; case: ix => [|b ix] //; case: ix => [|c ix] //; case: ix => [|d ix] //; case: ix => [|? ?] // _; by rewrite /permx /sg /= (h 0%N 0%N 0%N 1%N a b c d isT : E "I.ooov" _ = _) (h 0%N 0%N 0%N 1%N b a c d isT : E "I.ooov" _ = _) h1 mulN1r.
split.
  move=> ix; case: ix => [|a ix] //; case: ix => [|b ix] //; case: ix => [|c ix] //; case: ix => [|d ix] //; case: ix => [|? ?] // _; by rewrite /permx /sg /= (h 0%N 1%N 1%N 1%N a b c d isT : E "I.ovvv" _ = _) (h 0%N 1%N 1%N 1%N a b d c isT : E "I.ovvv" _ = _) h2 mulN1r.
split.
  move=> ix; case: ix => [|a ix] //; case: ix => [|b ix] //; case: ix => [|c ix] //; case: ix => [|d ix] //; case: ix => [|? ?] // _; by rewrite /permx /sg /= (h 1%N 1%N 0%N 1%N a b c d isT : E "I.vvov" _ = _) (h 1%N 1%N 0%N 1%N b a c d isT : E "I.vvov" _ = _) h1 mulN1r.
split.
  move=> ix; case: ix => [|a ix] //; case: ix => [|b ix] //; case: ix => [|c ix] //; case: ix => [|d ix] //; case: ix => [|? ?] // _; by rewrite /permx /sg /= (h 0%N 1%N 0%N 0%N a b c d isT : E "I.ovoo" _ = _) (h 0%N 1%N 0%N 0%N a b d c isT : E "I.ovoo" _ = _) h2 mulN1r.
split.
  move=> ix; case: ix => [|a ix] //; case: ix => [|b ix] //; case: ix => [|c ix] //; case: ix => [|d ix] //; case: ix => [|? ?] // _; by rewrite /permx /sg /= t1 mulN1r.
split.
  move=> ix; case: ix => [|a ix] //; case: ix => [|b ix] //; case: ix => [|c ix] //; case: ix => [|d ix] //; case: ix => [|? ?] // _; by rewrite /permx /sg /= t2 mulN1r.
split.
  move=> ix; case: ix => [|a ix] //; case: ix => [|b ix] //; case: ix => [|c ix] //; case: ix => [|d ix] //; case: ix => [|e ix] //; case: ix => [|? ?] // _; by rewrite /permx /sg /= t3 mulN1r.
split.
  move=> ix; case: ix => [|a ix] //; case: ix => [|b ix] //; case: ix => [|c ix] //; case: ix => [|d ix] //; case: ix => [|e ix] //; case: ix => [|? ?] // _; by rewrite /permx /sg /= t4 mulN1r.
split.
  move=> ix; case: ix => [|a ix] //; case: ix => [|b ix] //; case: ix => [|c ix] //; case: ix => [|d ix] //; case: ix => [|e ix] //; case: ix => [|f ix] //; case: ix => [|? ?] // _; by rewrite /permx /sg /= p4 mulN1r.
split.
  move=> ix; case: ix => [|a ix] //; case: ix => [|b ix] //; case: ix => [|c ix] //; case: ix => [|d ix] //; case: ix => [|e ix] //; case: ix => [|f ix] //; case: ix => [|? ?] // _; by rewrite /permx /sg /= p5 mulN1r.
split.
  move=> ix; case: ix => [|a ix] //; case: ix => [|b ix] //; case: ix => [|c ix] //; case: ix => [|d ix] //; case: ix => [|e ix] //; case: ix => [|f ix] //; case: ix => [|? ?] // _; by rewrite /permx /sg /= p3 mul1r.
split.
  move=> ix; case: ix => [|a ix] //; case: ix => [|b ix] //; case: ix => [|c ix] //; case: ix => [|d ix] //; case: ix => [|? ?] // _; by rewrite /permx /sg /= p2 mul1r.
split.
  move=> ix; case: ix => [|a ix] //; case: ix => [|b ix] //; case: ix => [|? ?] // _; by rewrite /permx /sg /= p1 mul1r.
split.
  move=> ix; case: ix => [|a ix] //; case: ix => [|b ix] //; case: ix => [|c ix] //; case: ix => [|? ?] // _; by rewrite /permx /sg /= (hc 0%N 0%N a b c isT isT : E "h.oo" _ = E "g.oo" _) mul1r.
split.
  move=> ix; case: ix => [|a ix] //; case: ix => [|b ix] //; case: ix => [|c ix] //; case: ix => [|? ?] // _; by rewrite /permx /sg /= (hc 0%N 1%N a b c isT isT : E "h.ov" _ = E "g.ov" _) mul1r.
split.
  move=> ix; case: ix => [|a ix] //; case: ix => [|b ix] //; case: ix => [|c ix] //; case: ix => [|? ?] // _; by rewrite /permx /sg /= (hc 1%N 0%N a b c isT isT : E "h.vo" _ = E "g.vo" _) mul1r.
split.
  move=> ix; case: ix => [|a ix] //; case: ix => [|b ix] //; case: ix => [|c ix] //; case: ix => [|? ?] // _; by rewrite /permx /sg /= (hc 1%N 1%N a b c isT isT : E "h.vv" _ = E "g.vv" _) mul1r.
by [].
Qed.

Lemma wd_arrays : arrays_ok E -> arrays_ok (wd E).
Proof.
move=> [[A [h1 h2 h]] [t1 t2 t3 t4] [p1 p2 p3 p4 p5] hc]; split; last 1 first.
- by move=> k1 k2 x p q l1 l2; rewrite /wd /=; apply: hc.
- by exists A; split=> // k1 k2 k3 k4 p q r s hk; rewrite /wd /=; apply: h.
- by split=> *; rewrite /wd /=; [apply: t1|apply: t2|apply: t3|apply: t4].
by split=> *; rewrite /wd /=; [apply: p1|apply: p2|apply: p3|apply: p4|apply: p5].
Qed.

Lemma wd_zero (Z : seq string) : "delta" \notin Z -> (forall n ix, n \in Z -> E n ix = 0) ->
  forall n ix, n \in Z -> wd E n ix = 0.
Proof.
move=> hd h n ix hn; rewrite /wd; case: eqP => [e|_]; last exact: h.
by rewrite -e hn in hd.
Qed.

End Rules.

(* ------------------------------------------------------------------ *)
(** ** Symbolic runs *)

Lemma kind_of_ne c : kind_of c != 4%N.
Proof. by case: c => [[] [] [] [] [] [] [] []]. Qed.
Lemma kinds_ne s : 4%N \notin kinds s.
Proof. by elim: s => [|c s IH] //=; rewrite inE negb_or IH andbT eq_sym kind_of_ne. Qed.
Lemma base_ne n ks : base_shape n = Some ks -> 4%N \notin ks.
Proof.
rewrite /base_shape; case: (lookup named n) => [s [<-]|]; first exact: kinds_ne.
case: n => [|c [|d s]] //; case: ifP => // _.
case: ifP => [_ [<-]|_]; first exact: kinds_ne.
by case: ifP => [_ [<-]|_] //; rewrite inE negb_or kinds_ne.
Qed.

Lemma canon_good ks : 4%N \notin ks -> goodx (canon_ext ks).
Proof.
move=> h; rewrite /goodx /canon_ext; apply/andP; split.
  apply: (@map_uniq _ _ (fun v : var => v.2)).
  rewrite -[[seq _ | _ <- _]]/(unzip2 _) unzip2_zip ?size_iota //.
  exact: iota_uniq.
apply/negP => hz; case/negP: h.
have := map_f (fun v : var => v.1) hz.
by rewrite -[[seq _ | _ <- _]]/(unzip1 _) unzip1_zip ?size_iota.
Qed.

Definition res (c : cfg) (p : prog) (n : string) : option poly :=
  match sexec [::] (live c p) with Some s => getp s n | None => None end.

Section Runs.
Variable F : fieldType.
Variable D : nat -> nat.
Variable E : env F.

Lemma runP c p n P ix : res c p n = Some P -> size ix = size P.1 ->
  run D c p E n ix = evpoly D E P ix.
Proof.
rewrite /res; case h: (sexec _ _) => [s|//] hg hs.
have h0 : sound D [::] E E.
  by apply: base_sound => m ks /base_ne; apply: canon_good.
have [_ hh] := sexec_sound h0 h hg.
exact: hh.
Qed.
End Runs.

(* ------------------------------------------------------------------ *)
(** ** Finitely many configurations *)

Definition clampc (c : cfg) : cfg := Cfg (minn (nf1 c) 2) (minn (nf2 c) 2) (u2 c).
Definition small (p : prog) : bool :=
  all (fun s => all (fun t => match t with
                              | T1gt n => n < 2 | T2gt n => n < 2 | TU2 => true
                              end)%N (guard s)) p.
Lemma live_clamp c p : small p -> live c p = live (clampc c) p.
Proof.
elim: p => [|s p IH] //= /andP [hs hp]; rewrite (IH hp).
suff -> : all (test_on c) (guard s) = all (test_on (clampc c)) (guard s) by [].
elim: (guard s) hs => [|t l IHl] //= /andP [ht hl]; rewrite (IHl hl); congr (_ && _).
case: t ht => [n|n|] //= hn; by rewrite leq_min hn andbT.
Qed.
Lemma run_clamp (F : fieldType) D c p (E : env F) : small p ->
  run D c p E = run D (clampc c) p E.
Proof. by move=> h; rewrite /run (live_clamp c h). Qed.
Lemma shift_clamp (F : fieldType) c y (e : F) E :
  shift c y e E = shift (clampc c) y e E.
Proof. by rewrite /shift /slope /= !leq_min !andbT. Qed.

Definition cfgs : seq cfg :=
  [seq Cfg x.1 x.2 true | x <- [seq (a, b) | a <- iota 0 3, b <- iota 0 3]]
  ++ [seq Cfg x.1 x.2 false | x <- [seq (a, b) | a <- iota 0 3, b <- iota 0 3]].
Lemma by_cfg (pre f : cfg -> bool) c :
  all (fun d => pre d ==> f d) cfgs -> pre (clampc c) -> f (clampc c).
Proof.
case: c => a b u; rewrite /clampc /=.
have ha : (minn a 2 <= 2)%N by exact: geq_minr.
have hb : (minn b 2 <= 2)%N by exact: geq_minr.
rewrite /cfgs /= => /andP [h0 /andP [h1 /andP [h2 /andP [h3 /andP [h4 /andP [h5
  /andP [h6 /andP [h7 /andP [h8 /andP [k0 /andP [k1 /andP [k2 /andP [k3 /andP [k4
  /andP [k5 /andP [k6 /andP [k7 /andP [k8 _]]]]]]]]]]]]]]]]]] hp.
move: (minn a 2) (minn b 2) ha hb hp => [|[|[|m]]] [|[|[|n]]] // _ _; case: u => hp;
  first [exact: (implyP h0)|exact: (implyP h1)|exact: (implyP h2)|exact: (implyP h3)
  |exact: (implyP h4)|exact: (implyP h5)|exact: (implyP h6)|exact: (implyP h7)
  |exact: (implyP h8)|exact: (implyP k0)|exact: (implyP k1)|exact: (implyP k2)
  |exact: (implyP k3)|exact: (implyP k4)|exact: (implyP k5)|exact: (implyP k6)
  |exact: (implyP k7)|exact: (implyP k8)].
Qed.

(* ------------------------------------------------------------------ *)
(** ** From computations on sums to equations between arrays *)

Definition diff (c : cfg) (p : prog) (n : string) (q : prog) (m : string)
  (Z : seq string) (k : nat) : option (seq (key * int)) :=
  match res c p n, res c q m with
  | Some P, Some Q => if size P.1 == k then pdiff R Z P Q else None
  | _, _ => None
  end.
Definition same c p n q m Z k : bool := diff c p n q m Z k == Some [::].

(** One photon mode: the axes of the modes are taken at 0. *)
Definition one_ok (k : nat) (P : poly) : bool :=
  [&& size P.1 == k, all (fun v : var => v.1 != 2%N) P.1, zv \notin P.1
    & all (fun t : term => zv \notin t.2.1) P.2].
Definition pdiff1 (Z : seq string) (kp kq k : nat) (P Q : poly) :
  option (seq (key * int)) :=
  match zax kp P, zax kq Q with
  | Some P', Some Q' =>
      if one_ok k P' && one_ok k Q' then pdiff R Z (onep P') (onep Q') else None
  | _, _ => None
  end.
Definition diff1 (c : cfg) (p : prog) (n : string) (kp : nat) (q : prog) (m : string)
  (kq : nat) (Z : seq string) (k : nat) : option (seq (key * int)) :=
  match res c p n, res c q m with
  | Some P, Some Q => pdiff1 Z kp kq k P Q
  | _, _ => None
  end.

(** Letters of the photons of the derivatives. *)
Definition ly : var := (2, 50)%N.
Definition lz : var := (2, 51)%N.

(** The array that the program [W] leaves in "R" plus the first (second)
    derivative of the array [m] of [q]. *)
Definition der1 (c : cfg) (q : prog) (m : string) (W : prog) : option poly :=
  match res c q m, res c W "R" with
  | Some Q, Some P =>
      if dok ly Q && nodelta Q && nodelta P && (size P.1 == (size Q.1).+1)
         && goodx (dpoly c ly Q).1
      then saddp P (edp [:: ly] (dpoly c ly Q)) else None
  | _, _ => None
  end.
Definition der2 (c : cfg) (q : prog) (m : string) (W : prog) : option poly :=
  match res c q m, res c W "R" with
  | Some Q, Some P =>
      let Q1 := dpoly c lz Q in
      let Q2 := dpoly c ly Q1 in
      if dok lz Q && dok ly Q1 && nodelta Q && nodelta P
         && (size P.1 == (size Q.1).+2) && goodx Q2.1
      then saddp P (edp [:: ly; lz] Q2) else None
  | _, _ => None
  end.
Definition ddiff (B : option poly) (c : cfg) (p : prog) (n : string) (Z : seq string)
  (k : nat) : option (seq (key * int)) :=
  match res c p n, B with
  | Some P, Some Q => if (size P.1 == k) && nodelta P then pdiff R Z P Q else None
  | _, _ => None
  end.
Definition ddiff1 (B : option poly) (c : cfg) (p : prog) (n : string) (Z : seq string)
  (kp kq k : nat) : option (seq (key * int)) :=
  match res c p n, B with
  | Some P, Some Q =>
      if (size P.1 == kp + k)%N && nodelta P then pdiff1 Z kp kq k P Q else None
  | _, _ => None
  end.

Section Compare.
Variable F : fieldType.
Hypothesis two : 2%:R != 0 :> F.
Variable D : nat -> nat.
Variable E : env F.
Hypothesis arrays : arrays_ok E.
Variable Z : seq string.
Hypothesis zeros : forall n ix, n \in Z -> E n ix = 0.
Hypothesis nod : "delta" \notin Z.

Let hR := R_ok arrays.
Let hR' := R_ok (wd_arrays arrays).
Let hZ' := wd_zero nod zeros.

(** Letters of the axes of the difference. *)
Definition axr (c : cfg) (p : prog) (n : string) (ix : seq nat) : asg :=
  match res c p n with
  | Some P => bindv (canon_ext [seq v.1 | v <- P.1]) ix
  | None => fun _ => 0%N
  end.

Definition axr1 (c : cfg) (p : prog) (n : string) (kp : nat) (ix : seq nat) : asg :=
  match res c p n with
  | Some P => bindv (canon_ext [seq v.1 | v <- drop kp P.1]) ix
  | None => fun _ => 0%N
  end.

Lemma diffP c p n q m k l ix : diff c p n q m Z k = Some l -> size ix = k ->
  run D c p E n ix - run D c q E m ix = evl D E (axr c p n ix) l.
Proof.
rewrite /diff /axr; case hp: (res c p n) => [P|//]; case hq: (res c q m) => [Q|//].
case: eqP => // hk hd hix.
have hs : size P.1 = size Q.1 by move: hd; rewrite /pdiff; case: eqP.
have sp : size ix = size P.1 by rewrite hix.
have sq : size ix = size Q.1 by rewrite -hs.
rewrite (runP D E hp sp) (runP D E hq sq).
exact: (pdiff_ok D two hR zeros hd sp).
Qed.

Lemma evl0 r : evl D E r [::] = 0. Proof. by rewrite /evl big_nil. Qed.

Lemma sameP c p n q m k ix : same c p n q m Z k -> size ix = k ->
  run D c p E n ix = run D c q E m ix.
Proof.
by move=> /eqP h hs; apply/eqP; rewrite -subr_eq0 (diffP h hs) evl0.
Qed.

Lemma pdiff1P (E' : env F) kp kq k P Q l ix : D 2%N = 1%N ->
  (forall ru, ru \in R -> rule_ok E' ru) ->
  (forall (n : string) ix, n \in Z -> E' n ix = 0) ->
  pdiff1 Z kp kq k P Q = Some l -> size ix = k ->
  evpoly D E' P (nseq kp 0%N ++ ix)%SEQ - evpoly D E' Q (nseq kq 0%N ++ ix)%SEQ
  = evl D E' (bindv (canon_ext [seq v.1 | v <- drop kp P.1]) ix) l.
Proof.
move=> h1 hr hz; rewrite /pdiff1.
case zp: (zax kp P) => [P'|//]; case zq: (zax kq Q) => [Q'|//]; case: ifP => //.
case/andP=> /and4P [/eqP sp ap bp cp] /and4P [/eqP sq aq bq cq] hd hix.
have eP : P'.1 = drop kp P.1 by move/checkP: zp => [_ _ <-].
rewrite (zax_ok D E' zp) ?hix // (zax_ok D E' zq) ?hix //.
rewrite -(onep_ok E' h1 ix ap bp cp) -(onep_ok E' h1 ix aq bq cq) -eP.
by apply: (pdiff_ok D two hr hz hd); rewrite hix.
Qed.

Lemma diff1P c p n kp q m kq k l ix : D 2%N = 1%N ->
  diff1 c p n kp q m kq Z k = Some l -> size ix = k ->
  run D c p E n (nseq kp 0%N ++ ix)%SEQ - run D c q E m (nseq kq 0%N ++ ix)%SEQ
  = evl D E (axr1 c p n kp ix) l.
Proof.
move=> h1; rewrite /diff1 /axr1.
case hp: (res c p n) => [P|//]; case hq: (res c q m) => [Q|//].
move=> hd hix; rewrite -(pdiff1P h1 hR zeros hd hix).
have sz : forall k' P P', zax k' P = Some P' -> size P.1 = (k' + size P'.1)%N.
  by move=> k' W W' /checkP [/andP [hk _] _ <-] /=; rewrite size_drop subnKC.
move: hd; rewrite /pdiff1; case zp: (zax kp P) => [P'|//]; case zq: (zax kq Q) => [Q'|//].
case: ifP => // /andP [/and4P [/eqP sp _ _ _] /and4P [/eqP sq _ _ _]] _.
rewrite (runP D E hp) ?(runP D E hq) //; rewrite size_cat size_nseq hix.
  by rewrite (sz _ _ _ zq) sq.
by rewrite (sz _ _ _ zp) sp.
Qed.

Lemma same1P c p n kp q m kq k ix : D 2%N = 1%N ->
  diff1 c p n kp q m kq Z k == Some [::] -> size ix = k ->
  run D c p E n (nseq kp 0%N ++ ix)%SEQ = run D c q E m (nseq kq 0%N ++ ix)%SEQ.
Proof.
move=> h1 /eqP h hs; apply/eqP; rewrite -subr_eq0.
by rewrite (diff1P h1 h hs) evl0.
Qed.

Lemma saddpP (E' : env F) P Q B ix : saddp P Q = Some B -> goodx Q.1 -> goodx P.1 ->
  size ix = size P.1 ->
  evpoly D E' B ix = evpoly D E' P ix + evpoly D E' Q ix.
Proof.
move=> h gq gp hix; have [_ hh] := @saddp_sound F D E' (evpoly D E' P) (evpoly D E' Q) P Q B
  (conj gp (fun _ _ => erefl _)) (conj gq (fun _ _ => erefl _)) h.
rewrite -hh //; by move: h => /checkP [_ _ <-].
Qed.

Lemma saddp_goodl P Q B : saddp P Q = Some B -> goodx P.1.
Proof. by case/checkP. Qed.

Lemma runpoly c q m Q (E' : env F) ix : res c q m = Some Q -> nodelta Q -> size ix = size Q.1 ->
  run D c q E' m ix = evpoly D (wd E') Q ix.
Proof. by move=> h hn hs; rewrite (runP D E' h hs) evpoly_wd. Qed.

Lemma der1P c q m W B y ix : der1 c q m W = Some B -> (y < D 2)%N ->
  (size ix).+1 = size B.1 ->
  exists d, one_photon D c q m E y ix d /\
            evpoly D (wd E) B (y :: ix) = run D c W E "R" (y :: ix) + d.
Proof.
rewrite /der1; case hq: (res c q m) => [Q|//]; case hw: (res c W "R") => [P|//].
case: ifP => // /andP [/andP [/andP [/andP [hd hn] hnP] /eqP hsz] hg] hs hy hix.
have eB : B.1 = P.1 by move: hs => /checkP [_ _ <-].
rewrite eB in hix.
have hixQ : size ix = size Q.1 by move: hix; rewrite hsz => -[].
exists (evpoly D (wd E) (dpoly c ly Q) (y :: ix)); split.
  apply: (deriv0_ext _ (dpoly_ok D c y ix E hd)) => e.
  rewrite (runpoly _ hq) //; symmetry.
  by apply: evpoly_env => t f _ _ jx; rewrite wd_shift.
rewrite (saddpP _ hs) //; last by apply: saddp_goodl hs.
rewrite -(runpoly _ hw) //; congr (_ + _); apply: edp_ok => v.
by rewrite inE => /eqP ->; rewrite /bindv.
Qed.

Lemma der2P c q m W B y z ix : der2 c q m W = Some B -> (y < D 2)%N -> (z < D 2)%N ->
  (size ix).+2 = size B.1 ->
  exists d, two_photon D c q m E y z ix d /\
            evpoly D (wd E) B [:: y, z & ix] = run D c W E "R" [:: y, z & ix] + d.
Proof.
rewrite /der2; case hq: (res c q m) => [Q|//]; case hw: (res c W "R") => [P|//].
case: ifP => // /andP [/andP [/andP [/andP [/andP [hd hd2] hn] hnP] /eqP hsz] hg] hs hy hz hix.
have eB : B.1 = P.1 by move: hs => /checkP [_ _ <-].
rewrite eB in hix.
have hixQ : size ix = size Q.1 by move: hix; rewrite hsz => -[].
exists (evpoly D (wd E) (dpoly c ly (dpoly c lz Q)) [:: y, z & ix]); split.
  exists (fun e => evpoly D (wd (shift c y e E)) (dpoly c lz Q) (z :: ix)); split.
    move=> e; apply: (deriv0_ext _ (dpoly_ok D c z ix (shift c y e E) hd)) => e'.
    rewrite (runpoly _ hq) //; symmetry.
    by apply: evpoly_env => t f _ _ jx; rewrite wd_shift.
  apply: (deriv0_ext _ (dpoly_ok D c y (z :: ix) E hd2)) => e.
  by symmetry; apply: evpoly_env => t f _ _ jx; rewrite wd_shift.
rewrite (saddpP _ hs) //; last by apply: saddp_goodl hs.
rewrite -(runpoly _ hw) //; congr (_ + _); apply: edp_ok => v.
by rewrite !inE => /orP [] /eqP ->; rewrite /bindv.
Qed.

Lemma ddiffP B Q c p n k l jx : B = Some Q -> ddiff B c p n Z k = Some l -> size jx = k ->
  run D c p E n jx - evpoly D (wd E) Q jx = evl D (wd E) (axr c p n jx) l.
Proof.
move=> ->; rewrite /ddiff /axr; case hp: (res c p n) => [P|//].
case: ifP => // /andP [/eqP hk hn] hd hix; rewrite (runpoly _ hp) ?hix //.
by apply: (pdiff_ok D two hR' hZ' hd); rewrite hix.
Qed.

Lemma ddiff_size B Q c p n k l : B = Some Q -> ddiff B c p n Z k = Some l -> size Q.1 = k.
Proof.
move=> ->; rewrite /ddiff; case: (res c p n) => [P|//]; case: ifP => // /andP [/eqP <- _].
by rewrite /pdiff; case: eqP.
Qed.

Lemma ddiff1P B Q c p n kp kq k l ix : D 2%N = 1%N -> B = Some Q ->
  ddiff1 B c p n Z kp kq k = Some l -> size ix = k ->
  run D c p E n (nseq kp 0%N ++ ix)%SEQ - evpoly D (wd E) Q (nseq kq 0%N ++ ix)%SEQ
  = evl D (wd E) (axr1 c p n kp ix) l.
Proof.
move=> h1 ->; rewrite /ddiff1 /axr1; case hp: (res c p n) => [P|//].
case: ifP => // /andP [/eqP hk hn] hd hix.
rewrite (runpoly _ hp) //; first exact: (pdiff1P h1 hR' hZ' hd).
by rewrite size_cat size_nseq hix hk.
Qed.

Lemma ddiff1_size B Q c p n kp kq k l : B = Some Q ->
  ddiff1 B c p n Z kp kq k = Some l -> size Q.1 = (kq + k)%N.
Proof.
move=> ->; rewrite /ddiff1; case: (res c p n) => [P|//]; case: ifP => // _.
rewrite /pdiff1; case: (zax kp P) => [P'|//]; case zq: (zax kq Q) => [Q'|//].
case: ifP => // /andP [_ /and4P [/eqP hs _ _ _]] _.
by move/checkP: zq hs => [/andP [hk _] _ <-] /=; rewrite size_drop => <-; rewrite subnKC.
Qed.

End Compare.

(* ------------------------------------------------------------------ *)
(** ** Witnesses with integer entries *)

(** 1, -1 or 0 as a comes before, after or with b; and for orbitals. *)
Definition eo (a b : nat) : int :=
  if (a < b)%N then 1 else if (b < a)%N then -1 else 0.
Definition code (v : var) : nat := (2 * v.2 + v.1)%N.
Definition ev (u v : var) : int := eo (code u) (code v).
Definition okind (a : ascii) : nat := if Ascii.eqb a "o" then 0%N else 1%N.

(** Arrays with the symmetries of QccSpec.v: [on] gives the entries, or a
    factor for the antisymmetric ones; all blocks of integrals are called "I",
    and h is g. *)
Definition wit (on : string -> seq nat -> int) (n : string) (ix : seq nat) : int :=
  if n == "T2old" then
    match ix with [:: a; b; i; j] => on n [::] * (eo a b * eo i j) | _ => 0 end
  else if n == "U2nold[0]" then
    match ix with [:: x; a; b; i; j] => on n [:: x] * (eo a b * eo i j) | _ => 0 end
  else if n == "U2nold[1]" then
    match ix with [:: x; y; a; b; i; j] => on n [:: (x + y)%N] * (eo a b * eo i j) | _ => 0 end
  else if n == "U1nold[1]" then
    match ix with [:: x; y; a; i] => on n [:: (x + y)%N; a; i] | _ => 0 end
  else if n == "Snold[1]" then
    match ix with [:: x; y] => on n [:: (x + y)%N] | _ => 0 end
  else
    match n with
    | String x (String y s) =>
        if Ascii.eqb y "." then
          if Ascii.eqb x "I" then
            match s, ix with
            | String a (String b (String c (String d EmptyString))), [:: p; q; r; t] =>
                on "I" [::] * (ev (okind a, p) (okind b, q) * ev (okind c, r) (okind d, t))
            | _, _ => 0
            end
          else if Ascii.eqb x "g" || Ascii.eqb x "h" then on ("g." ++ s) ix else on n ix
        else on n ix
    | _ => on n ix
    end.
Definition ratenv (e : string -> seq nat -> int) : env [fieldType of rat] :=
  fun n ix => (e n ix)%:~R.

Lemma eoC a b : eo a b = - eo b a.
Proof. by rewrite /eo; case: ltngtP. Qed.
Lemma evC u v : ev u v = - ev v u.
Proof. exact: eoC. Qed.

Local Arguments eo : simpl never.
Local Arguments ev : simpl never.

Lemma wit_ok on : arrays_ok (ratenv (wit on)).
Proof.
split.
- exists (fun p q r s => (on "I" [::] * (ev p q * ev r s))%:~R); split.
  + by move=> p q r s; rewrite (evC p q) mulNr mulrN rmorphN.
  + by move=> p q r s; rewrite (evC r s) !mulrN rmorphN.
  by move=> [|[|?]] [|[|?]] [|[|?]] [|[|?]].
- split=> [a b i j|a b i j|x a b i j|x a b i j]; rewrite /ratenv /wit /=.
  + by rewrite [eo b a]eoC mulNr mulrN rmorphN opprK.
  + by rewrite [eo j i]eoC !mulrN rmorphN opprK.
  + by rewrite [eo b a]eoC mulNr mulrN rmorphN opprK.
  by rewrite [eo j i]eoC !mulrN rmorphN opprK.
- split=> [x y|x y a i|x y a b i j|x y a b i j|x y a b i j]; rewrite /ratenv /wit //= ?[(y + x)%N]addnC //.
  + by rewrite [eo b a]eoC mulNr mulrN rmorphN opprK.
  by rewrite [eo j i]eoC !mulrN rmorphN opprK.
by move=> [|[|?]] [|[|?]].
Qed.

(** Values of differences, computed with integers. *)
Fixpoint bsumi (D : nat -> nat) (bs : seq var) (r : asg) (G : asg -> int) : int :=
  match bs with
  | [::] => G r
  | b :: bs' => foldr (fun x a => bsumi D bs' (updv r b x) G + a) 0 (iota 0 (D b.1))
  end.
Definition evmi (e : string -> seq nat -> int) (r : asg) (fs : seq fac) : int :=
  foldr (fun (f : fac) a => e f.1 [seq r v | v <- f.2] * a) 1 fs.
Definition evli (D : nat -> nat) (e : string -> seq nat -> int) (r : asg)
  (l : seq (key * int)) : int :=
  foldr (fun (x : key * int) a => x.2 * bsumi D x.1.1 r (fun q => evmi e q x.1.2) + a) 0 l.
Definition wdi (e : string -> seq nat -> int) (n : string) (ix : seq nat) : int :=
  if n == "delta" then match ix with j :: jx => ((jx == [:: j])%:R : int) | [::] => 0 end
  else e n ix.

Lemma evmiP (E : env [fieldType of rat]) e r fs : (forall n ix, E n ix = (e n ix)%:~R) ->
  evm E r fs = (evmi e r fs)%:~R.
Proof.
move=> he; rewrite /evm /evmi; elim: fs => [|f fs IH] /=; first by rewrite big_nil.
by rewrite big_cons IH /evf he intrM.
Qed.
Lemma bsumiP D bs r (G : asg -> rat) Gi : (forall q, G q = (Gi q)%:~R) ->
  bsum (F := [fieldType of rat]) D bs r G = (bsumi D bs r Gi)%:~R.
Proof.
move=> h; elim: bs r => [|b bs IH] r /=; first exact: h.
rewrite -(big_mkord xpredT (fun x => bsum (F := [fieldType of rat]) D bs (updv r b x) G)).
rewrite /index_iota subn0.
elim: (iota 0 (D b.1)) => [|x l IHl] /=; first by rewrite big_nil.
by rewrite big_cons IHl intrD IH.
Qed.
Lemma evliP D (E : env [fieldType of rat]) e r l : (forall n ix, E n ix = (e n ix)%:~R) ->
  evl D E r l = (evli D e r l)%:~R / 2%:R ^+ kden.
Proof.
move=> he; rewrite /evl; elim: l => [|x l IH] /=; first by rewrite big_nil mul0r.
rewrite big_cons IH intrD mulrDl; congr (_ + _).
rewrite /evk (@bsumiP D x.1.1 r _ (fun q => evmi e q x.1.2)); last by move=> q; apply: evmiP.
by rewrite /cf intrM mulrAC.
Qed.
Lemma evli_neq D (E : env [fieldType of rat]) e r l : (forall n ix, E n ix = (e n ix)%:~R) ->
  evli D e r l != 0 -> evl D E r l != 0.
Proof.
move=> he h; rewrite (evliP D r l he) mulf_neq0 //; by rewrite intr_eq0.
Qed.
Lemma wdiP e n ix : wd (ratenv e) n ix = (wdi e n ix)%:~R.
Proof.
rewrite /wd /wdi; case: ifP => // _; case: ix => [|j jx] //=.
by case: (jx == _).
Qed.
Lemma rat2 : 2%:R != 0 :> [fieldType of rat]. Proof. by []. Qed.

(** A result at a witness. *)
Definition evpi (D : nat -> nat) (e : string -> seq nat -> int) (r : asg)
  (ts : seq term) : int :=
  foldr (fun (t : term) a =>
           t.1.1 * 2%:Z ^+ (kden - t.1.2) * bsumi D t.2.1 r (fun q => evmi e q t.2.2) + a)
        0 ts.
Definition runi (D : nat -> nat) (e : string -> seq nat -> int) c p n ix : option int :=
  match res c p n with
  | Some P => if (size ix == size P.1) && all (fun t : term => t.1.2 <= kden)%N P.2
              then Some (evpi D e (bindv P.1 ix) P.2) else None
  | None => None
  end.
Lemma runiP D e c p n ix z : runi D e c p n ix = Some z ->
  run D c p (ratenv e) n ix = z%:~R / 2%:R ^+ kden.
Proof.
rewrite /runi; case h: (res c p n) => [P|//]; case: ifP => // /andP [/eqP hs hk] [<-].
rewrite (runP D _ h hs) /evpoly.
elim: P.2 hk => [|t ts IH] /=; first by rewrite /evp big_nil mul0r.
case/andP=> ht hts; rewrite /evp big_cons -/(evp D (ratenv e) (bindv P.1 ix) ts) (IH hts).
rewrite [in RHS]intrD mulrDl; congr (_ + _); rewrite /evt -(cf_den rat2 _ ht) /cf.
rewrite (@bsumiP D t.2.1 _ _ (fun q => evmi e q t.2.2)); last by move=> q; apply: evmiP.
by rewrite [in RHS]intrM mulrAC.
Qed.

(** Entries of the witnesses below: [t1], [u11], [u12] for the singles. *)
Definition idn (a i : nat) : int := if a == i then 1 else 0.
Definition e00 (a i : nat) : int := if (a == 0%N) && (i == 0%N) then 1 else 0.
Definition zz (a i : nat) : int := 0.
Definition onG (G0 : int) (t1 u11 u12 : nat -> nat -> int) (n : string) (ix : seq nat) : int :=
  if n == "T1old" then t1 (nth 0%N ix 0) (nth 0%N ix 1)
  else if n == "U1nold[1]" then u12 (nth 0%N ix 1) (nth 0%N ix 2)
  else if n == "U1nold[0]" then u11 (nth 0%N ix 1) (nth 0%N ix 2)
  else if n == "w" then Posz (nth 0%N ix 0).+1
  else if String.prefix "g." n then e00 (nth 0%N ix 0) (nth 0%N ix 1)
  else if n == "G" then G0
  else 1.
(** Two orbitals of each kind and one or two modes. *)
Definition D1 (k : nat) : nat := if k == 2%N then 1%N else 2%N.
Definition D2 (k : nat) : nat := 2%N.
