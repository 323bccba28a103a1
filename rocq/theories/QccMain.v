(** From the computations of QccFacts.v to statements about arrays. *)
From Coq Require Import String Ascii.
From mathcomp Require Import all_ssreflect all_algebra.
From Verif Require Import QccModel QccCode QccSpec QccSym QccNorm QccDer QccProofs QccFacts.
Set Implicit Arguments.
Unset Strict Implicit.
Unset Printing Implicit Defensive.
Import GRing.Theory Num.Theory.
Local Open Scope ring_scope.
Local Open Scope string_scope.
Local Open Scope ring_scope.

Section Main.
Variable F : fieldType.
Hypothesis two : 2%:R != 0 :> F.
Variable D : nat -> nat.
Variable E : env F.
Hypothesis arrays : arrays_ok E.
Variable Z : seq string.
Hypothesis zeros : forall n ix, n \in Z -> E n ix = 0.
Hypothesis nod : "delta" \notin Z.

Lemma one_diff c p n q m W k l y ix :
  ddiff (der1 c q m W) c p n Z k.+1 = Some l -> (y < D 2)%N -> size ix = k ->
  exists d, one_photon D c q m E y ix d /\
    run D c p E n (y :: ix) = run D c W E "R" (y :: ix) + d
                              + evl D (wd E) (axr c p n (y :: ix)) l.
Proof.
case hB: (der1 c q m W) => [B|]; last by rewrite /ddiff; case: (res c p n).
move=> hd hy hix.
have hs := ddiff_size (erefl (Some B)) hd.
have hjx : size (y :: ix) = k.+1 by rewrite /= hix.
have hsB : (size ix).+1 = size B.1 by rewrite hs hix.
have [d [h1 h2]] := der1P E hB hy hsB.
exists d; split=> //; rewrite -h2.
by rewrite -(ddiffP two D arrays zeros nod (erefl (Some B)) hd hjx) addrC subrK.
Qed.

Lemma one_same c p n q m W k y ix :
  ddiff (der1 c q m W) c p n Z k.+1 == Some [::] -> (y < D 2)%N -> size ix = k ->
  exists d, one_photon D c q m E y ix d /\
    run D c p E n (y :: ix) = run D c W E "R" (y :: ix) + d.
Proof.
move=> /eqP hd hy hix; have [d [h1 h2]] := one_diff hd hy hix.
by exists d; split=> //; rewrite h2 evl0 addr0.
Qed.

Lemma two_diff c p n q m W k l y z ix :
  ddiff (der2 c q m W) c p n Z k.+2 = Some l -> (y < D 2)%N -> (z < D 2)%N -> size ix = k ->
  exists d, two_photon D c q m E y z ix d /\
    run D c p E n [:: y, z & ix] = run D c W E "R" [:: y, z & ix] + d
                              + evl D (wd E) (axr c p n [:: y, z & ix]) l.
Proof.
case hB: (der2 c q m W) => [B|]; last by rewrite /ddiff; case: (res c p n).
move=> hd hy hz hix.
have hs := ddiff_size (erefl (Some B)) hd.
have hjx : size [:: y, z & ix] = k.+2 by rewrite /= hix.
have hsB : (size ix).+2 = size B.1 by rewrite hs hix.
have [d [h1 h2]] := der2P E hB hy hz hsB.
exists d; split=> //; rewrite -h2.
by rewrite -(ddiffP two D arrays zeros nod (erefl (Some B)) hd hjx) addrC subrK.
Qed.

Lemma two_same c p n q m W k y z ix :
  ddiff (der2 c q m W) c p n Z k.+2 == Some [::] -> (y < D 2)%N -> (z < D 2)%N ->
  size ix = k ->
  exists d, two_photon D c q m E y z ix d /\
    run D c p E n [:: y, z & ix] = run D c W E "R" [:: y, z & ix] + d.
Proof.
move=> /eqP hd hy hz hix; have [d [h1 h2]] := two_diff hd hy hz hix.
by exists d; split=> //; rewrite h2 evl0 addr0.
Qed.

(** One mode. *)
Hypothesis one_mode : D 2%N = 1%N.

Lemma one_diff1 c p n kp q m W k l ix :
  ddiff1 (der1 c q m W) c p n Z kp 1 k = Some l -> size ix = k ->
  exists d, one_photon D c q m E 0 ix d /\
    run D c p E n (nseq kp 0%N ++ ix)%SEQ = run D c W E "R" (0%N :: ix) + d
                              + evl D (wd E) (axr1 c p n kp ix) l.
Proof.
case hB: (der1 c q m W) => [B|]; last by rewrite /ddiff1; case: (res c p n).
move=> hd hix.
have hs := ddiff1_size (erefl (Some B)) hd.
have hsB : (size ix).+1 = size B.1 by rewrite hs hix.
have hy : (0 < D 2)%N by rewrite one_mode.
have [d [h1 h2]] := der1P E hB hy hsB.
have hr := ddiff1P two arrays zeros nod one_mode (erefl (Some B)) hd hix.
by exists d; split=> //; rewrite -h2 -hr addrC subrK.
Qed.

Lemma two_diff1 c p n kp q m W k l ix :
  ddiff1 (der2 c q m W) c p n Z kp 2 k = Some l -> size ix = k ->
  exists d, two_photon D c q m E 0 0 ix d /\
    run D c p E n (nseq kp 0%N ++ ix)%SEQ = run D c W E "R" [:: 0%N, 0%N & ix] + d
                              + evl D (wd E) (axr1 c p n kp ix) l.
Proof.
case hB: (der2 c q m W) => [B|]; last by rewrite /ddiff1; case: (res c p n).
move=> hd hix.
have hs := ddiff1_size (erefl (Some B)) hd.
have hsB : (size ix).+2 = size B.1 by rewrite hs hix.
have hy : (0 < D 2)%N by rewrite one_mode.
have [d [h1 h2]] := der2P E hB hy hy hsB.
have hr := ddiff1P two arrays zeros nod one_mode (erefl (Some B)) hd hix.
by exists d; split=> //; rewrite -h2 -hr addrC subrK.
Qed.

End Main.

Section Bridges.
Variable F : fieldType.
Variable D : nat -> nat.
Implicit Types (E : env F).

Lemma one_photon_clamp c q m E y ix (d : F) : small q ->
  one_photon D (clampc c) q m E y ix d -> one_photon D c q m E y ix d.
Proof.
move=> hq; apply: deriv0_ext => e.
by rewrite -(run_clamp D c (shift (clampc c) y e E) hq) -shift_clamp.
Qed.
Lemma two_photon_clamp c q m E y z ix (d : F) : small q ->
  two_photon D (clampc c) q m E y z ix d -> two_photon D c q m E y z ix d.
Proof.
move=> hq [f [h1 h2]]; exists f; split=> // e.
by rewrite [shift c _ _ _]shift_clamp; apply: one_photon_clamp.
Qed.

Lemma wS1P c E y : run D c wS1 E "R" [:: y] = E "w" [:: y] * E "Snold[0]" [:: y].
Proof.
rewrite /run /live /= /step /= add0r /einsum /= !big_cons big_nil /at_val /= mulr1.
by rewrite /bindv.
Qed.
Lemma wU1P c E y a i :
  run D c wU1 E "R" [:: y; a; i] = E "w" [:: y] * E "U1nold[0]" [:: y; a; i].
Proof.
rewrite /run /live /= /step /= add0r /einsum /= !big_cons big_nil /at_val /= mulr1.
by rewrite /bindv.
Qed.
Lemma wU2P c E y a b i j :
  run D c wU2 E "R" [:: y; a; b; i; j] = E "w" [:: y] * E "U2nold[0]" [:: y; a; b; i; j].
Proof.
rewrite /run /live /= /step /= add0r /einsum /= !big_cons big_nil /at_val /= mulr1.
by rewrite /bindv.
Qed.
Lemma wS2P c E y z : run D c wS2 E "R" [:: y; z]
  = (E "w" [:: y] + E "w" [:: z]) * E "Snold[1]" [:: y; z].
Proof.
rewrite /run /live /= /step /= add0r /einsum /= !big_cons !big_nil /at_val /= !mulr1.
by rewrite /bindv mulrDl.
Qed.
Lemma wU11P c E y z a i : run D c wU11 E "R" [:: y; z; a; i]
  = (E "w" [:: y] + E "w" [:: z]) * E "U1nold[1]" [:: y; z; a; i].
Proof.
rewrite /run /live /= /step /= add0r /einsum /= !big_cons !big_nil /at_val /= !mulr1.
by rewrite /bindv mulrDl.
Qed.
Lemma wU22P c E y z a b i j : run D c wU22 E "R" [:: y; z; a; b; i; j]
  = (E "w" [:: y] + E "w" [:: z]) * E "U2nold[1]" [:: y; z; a; b; i; j].
Proof.
rewrite /run /live /= /step /= add0r /einsum /= !big_cons !big_nil /at_val /= !mulr1.
by rewrite /bindv mulrDl.
Qed.

Lemma run_swapped c p neg n pm E ix : n != "Q" ->
  run D c (p ++ swapped neg n pm)%SEQ E "Q" ix
  = (if neg then -1 else 1)
    * run D c p E n [seq nth 0%N ix (index j pm) | j <- iota 0 (size pm)].
Proof.
move=> hn; rewrite /run /live filter_cat /exec foldl_cat /= /step /= add0r /at_val /=.
by case: neg; rewrite /cf expr0 invr1 mulr1.
Qed.

End Bridges.

Lemma char2 (F : numFieldType) : 2%:R != 0 :> F.
Proof. by rewrite pnatr_eq0. Qed.

Lemma deriv0_uniq (F : numFieldType) (f : F -> F) d d' :
  deriv0 f d -> deriv0 f d' -> d = d'.
Proof.
move=> [q [hq <-]] [p [hp <-]]; suff -> : q = p by [].
apply/eqP; rewrite -subr_eq0; apply/negPn/negP => hne.
pose s := [seq (i%:R : F) | i <- iota 0 (size (q - p))].
have := max_poly_roots hne (rs := s); rewrite size_map size_iota ltnn.
have -> : all (root (q - p)) s.
  apply/allP => x /mapP [i _ ->]; rewrite /root hornerD hornerN -hq -hp subrr //.
rewrite map_inj_uniq ?iota_uniq //; first by move=> /(_ isT isT).
by move=> i j /eqP; rewrite eqr_nat => /eqP.
Qed.

(** Guards of the programs, and the classes of configurations. *)
Lemma sT : small opt_T1T2. Proof. by vm_compute. Qed.
Lemma sR1 : small ref_T1. Proof. by vm_compute. Qed.
Lemma sR2 : small ref_T2. Proof. by vm_compute. Qed.
Lemma sC : small sgbw. Proof. by vm_compute. Qed.
Lemma sEn : small energy. Proof. by vm_compute. Qed.
Lemma sOS : small optS. Proof. by vm_compute. Qed.
Lemma sO1 : small optU1. Proof. by vm_compute. Qed.
Lemma sO2 : small optU2. Proof. by vm_compute. Qed.
Lemma sP1 : small ref_U1n. Proof. by vm_compute. Qed.
Lemma sP2 : small ref_U2n. Proof. by vm_compute. Qed.
Lemma sG1 : small ref_single_U1n. Proof. by vm_compute. Qed.
Lemma sA : small all_opt. Proof. by vm_compute. Qed.
Lemma sW (p : prog) : all (fun s => nilp (guard s)) p -> small p.
Proof. by elim: p => [|s p IH] //= /andP [/nilP -> /IH]. Qed.

Lemma p11c c : (0 < nf1 c)%N -> (0 < nf2 c)%N -> p11 (clampc c).
Proof. by move=> h1 h2; rewrite /p11 /= !leq_min h1 h2. Qed.
Lemma p21c c : (1 < nf1 c)%N -> (0 < nf2 c)%N -> p21 (clampc c).
Proof. by move=> h1 h2; rewrite /p21 /= !leq_min h1 h2. Qed.
Lemma p11uc c : (0 < nf1 c)%N -> (0 < nf2 c)%N -> u2 c -> p11u (clampc c).
Proof. by move=> h1 h2 h3; rewrite /p11u /= !leq_min h1 h2 h3. Qed.
Lemma p111c c : (0 < nf1 c)%N -> nf2 c = 1%N -> u2 c -> p111 (clampc c).
Proof. by move=> h1 h2 h3; rewrite /p111 /= !leq_min h1 h2 h3. Qed.
Lemma p12c c : (0 < nf1 c)%N -> (1 < nf2 c)%N -> p12 (clampc c).
Proof. by move=> h1 h2; rewrite /p12 /= !leq_min h1 h2. Qed.
Lemma p12nc c : (0 < nf1 c)%N -> (1 < nf2 c)%N -> ~~ u2 c -> p12n (clampc c).
Proof. by move=> h1 h2 h3; rewrite /p12n /= !leq_min h1 h2 h3. Qed.
Lemma p12uc c : (0 < nf1 c)%N -> (1 < nf2 c)%N -> u2 c -> p12u (clampc c).
Proof. by move=> h1 h2 h3; rewrite /p12u /= !leq_min h1 h2 h3. Qed.
Lemma nodG : "delta" \notin [:: "G"]. Proof. by []. Qed.
Lemma zG (F : fieldType) (E : env F) : G_zero E ->
  forall (n : string) ix, n \in [:: "G"] -> E n ix = 0.
Proof. by move=> h n ix; rewrite inE => /eqP ->. Qed.
Lemma z0 (F : fieldType) (E : env F) (n : string) (ix : seq nat) :
  n \in ([::] : seq string) -> E n ix = 0.
Proof. by []. Qed.
Lemma zU (F : fieldType) (E : env F) : uncoupled E ->
  forall (n : string) ix, n \in Z0 -> E n ix = 0.
Proof.
move=> [hG h] n ix; rewrite !inE => /orP [/eqP ->|]; first exact: hG.
have q : forall k1 k2, (k1 < 2)%N -> (k2 < 2)%N -> _ := fun k1 k2 => h k1 k2 ix.
have [a1 b1] := q 0%N 0%N isT isT; have [a2 b2] := q 0%N 1%N isT isT.
have [a3 b3] := q 1%N 0%N isT isT; have [a4 b4] := q 1%N 1%N isT isT.
by do ?[case/orP=> [/eqP -> //|]]; move=> /eqP ->.
Qed.

Lemma wit_G on : (forall ix, on "G" ix = 0) -> G_zero (ratenv (wit on)).
Proof. by move=> h ix; rewrite /ratenv /wit /= h. Qed.

Lemma nzP D e (E : env [fieldType of rat]) o r l : nz D e o r -> o = Some l ->
  (forall n ix, E n ix = (e n ix)%:~R) -> evl D E r l != 0.
Proof. by move=> h ho he; move: h; rewrite ho /nz; apply: evli_neq. Qed.

(** Differences at integer arrays. *)
Section Nz.
Variables (D : nat -> nat) (e : string -> seq nat -> int).
Let E : env [fieldType of rat] := ratenv e.
Hypothesis arrays : arrays_ok E.

Lemma nz_run c p n q m k ix : nz D e (diff c p n q m [::] k) (axr c p n ix) ->
  size ix = k -> run D c p E n ix <> run D c q E m ix.
Proof.
case hd: (diff c p n q m [::] k) => [l|] // hn hix he.
have := diffP rat2 D arrays (@z0 _ E) hd hix.
rewrite he subrr => /esym/eqP; apply/negP.
exact: (nzP hn (erefl _)).
Qed.

Lemma nz_run1 c p n kp q m kq k ix : D 2%N = 1%N ->
  nz D e (diff1 c p n kp q m kq [::] k) (axr1 c p n kp ix) -> size ix = k ->
  run D c p E n (nseq kp 0%N ++ ix)%SEQ <> run D c q E m (nseq kq 0%N ++ ix)%SEQ.
Proof.
move=> h1; case hd: (diff1 c p n kp q m kq [::] k) => [l|] // hn hix he.
have := diff1P rat2 arrays (@z0 _ E) h1 hd hix.
rewrite he subrr => /esym/eqP; apply/negP.
exact: (nzP hn (erefl _)).
Qed.

Hypothesis G0 : G_zero E.

Lemma nz_one c p n q m W k y ix :
  nz D (wdi e) (ddiff (der1 c q m W) c p n [:: "G"] k.+1) (axr c p n (y :: ix)) ->
  (y < D 2)%N -> size ix = k ->
  exists d, one_photon D c q m E y ix d /\
    run D c p E n (y :: ix) <> run D c W E "R" (y :: ix) + d.
Proof.
case hd: (ddiff (der1 c q m W) c p n [:: "G"] k.+1) => [l|] // hn hy hix.
have [d [e1 e2]] := one_diff rat2 arrays (zG G0) nodG hd hy hix.
exists d; split=> //; rewrite e2 => /eqP.
rewrite -subr_eq0 addrAC subrr add0r; apply/negP.
by apply: (nzP hn (erefl _)) => ? ?; apply: wdiP.
Qed.

Lemma nz_two c p n q m W k y z ix :
  nz D (wdi e) (ddiff (der2 c q m W) c p n [:: "G"] k.+2) (axr c p n [:: y, z & ix]) ->
  (y < D 2)%N -> (z < D 2)%N -> size ix = k ->
  exists d, two_photon D c q m E y z ix d /\
    run D c p E n [:: y, z & ix] <> run D c W E "R" [:: y, z & ix] + d.
Proof.
case hd: (ddiff (der2 c q m W) c p n [:: "G"] k.+2) => [l|] // hn hy hz hix.
have [d [e1 e2]] := two_diff rat2 arrays (zG G0) nodG hd hy hz hix.
exists d; split=> //; rewrite e2 => /eqP.
rewrite -subr_eq0 addrAC subrr add0r; apply/negP.
by apply: (nzP hn (erefl _)) => ? ?; apply: wdiP.
Qed.

Lemma nz_one1 c p n kp q m W k ix : D 2%N = 1%N ->
  nz D (wdi e) (ddiff1 (der1 c q m W) c p n [:: "G"] kp 1 k) (axr1 c p n kp ix) ->
  size ix = k ->
  exists d, one_photon D c q m E 0 ix d /\
    run D c p E n (nseq kp 0%N ++ ix)%SEQ <> run D c W E "R" (0%N :: ix) + d.
Proof.
move=> h1; case hd: (ddiff1 (der1 c q m W) c p n [:: "G"] kp 1 k) => [l|] // hn hix.
have [d [e1 e2]] := one_diff1 rat2 arrays (zG G0) nodG h1 hd hix.
exists d; split=> //; rewrite e2 => /eqP.
rewrite -subr_eq0 addrAC subrr add0r; apply/negP.
by apply: (nzP hn (erefl _)) => ? ?; apply: wdiP.
Qed.

Lemma nz_two1 c p n kp q m W k ix : D 2%N = 1%N ->
  nz D (wdi e) (ddiff1 (der2 c q m W) c p n [:: "G"] kp 2 k) (axr1 c p n kp ix) ->
  size ix = k ->
  exists d, two_photon D c q m E 0 0 ix d /\
    run D c p E n (nseq kp 0%N ++ ix)%SEQ <> run D c W E "R" [:: 0%N, 0%N & ix] + d.
Proof.
move=> h1; case hd: (ddiff1 (der2 c q m W) c p n [:: "G"] kp 2 k) => [l|] // hn hix.
have [d [e1 e2]] := two_diff1 rat2 arrays (zG G0) nodG h1 hd hix.
exists d; split=> //; rewrite e2 => /eqP.
rewrite -subr_eq0 addrAC subrr add0r; apply/negP.
by apply: (nzP hn (erefl _)) => ? ?; apply: wdiP.
Qed.
End Nz.

(** The remaining term of the shipped equation with two photons. *)
Lemma axrP c a i : p12 (clampc c) ->
  axr1 (clampc c) optU1 "U1n[1]" 2 [:: a; i] = bindv (canon_ext [:: 1; 0]%N) [:: a; i].
Proof.
move=> h; have /eqP := by_cfg x_U12 h; rewrite /axr1.
by case: (res (clampc c) optU1 "U1n[1]") => [P|//] /= [->].
Qed.
Lemma extraP (F : numFieldType) D (E : env F) a i :
  evl D (wd E) (bindv (canon_ext [:: 1; 0]%N) [:: a; i]) extra
  = - (2%:R^-1 * (\sum_(k < D 0%N) \sum_(l < D 0%N) \sum_(e < D 1%N) \sum_(f < D 1%N)
          E "I.oovv" [:: nat_of_ord k; nat_of_ord l; nat_of_ord e; nat_of_ord f]
          * E "T2old" [:: a; nat_of_ord e; i; nat_of_ord k]
          * E "U1nold[1]" [:: 0%N; 0%N; nat_of_ord f; nat_of_ord l])).
Proof.
rewrite /evl big_seq1 /=.
have -> : cf F (-128) kden = - 2%:R^-1.
  rewrite /cf -[(-128 : int)]/(- (2%:Z ^+ 7)) rmorphN rmorphX /= mulNr; congr (- _).
  have -> : kden = 7.+1 by [].
  rewrite [X in _ / X]exprSr invfM mulrA mulfV ?mul1r //.
  by rewrite expf_neq0 // char2.
rewrite mulNr; congr (- (_ * _)); rewrite /evk /=.
apply: eq_bigr => k _; apply: eq_bigr => l _; apply: eq_bigr => e _; apply: eq_bigr => g _.
by rewrite /evm !big_cons big_nil mulr1 mulrA.
Qed.

Lemma q4 : (-1024 : int)%:~R / 2%:R ^+ kden = - 4%:R :> rat.
Proof.
have -> : (-1024 : int) = - (4%:Z * 2%:Z ^+ kden) by [].
by rewrite rmorphN rmorphM rmorphX /= mulNr mulfK.
Qed.
Lemma q3 : - 3%:R - 1 = - 4%:R :> rat.
Proof. by rewrite -opprD -(natrD _ 3 1). Qed.
