(** Properties of the amplitude equations of QED-CCSD: what the functions of
    /repo/openms/mqed/myqedcc_equations_opt.py, which ccsd.py calls, and the
    plain equations of /repo/openms/mqed/qedcc_equations.py compute.  [run D c p E n]
    is the array n after the program p, for nocc = D 0, nvir = D 1, D 2 modes,
    the configuration c (nfock1, nfock2, whether coupled doubles are used) and
    the arrays E passed in. *)
From Coq Require Import String Ascii.
From mathcomp Require Import all_ssreflect all_algebra.
From Verif Require Import QccModel QccCode QccSpec QccSym QccNorm QccDer.
From Verif Require Import QccProofs QccFacts QccMain.
Set Implicit Arguments.
Unset Strict Implicit.
Unset Printing Implicit Defensive.
Import GRing.Theory Num.Theory.
Local Open Scope ring_scope.
Local Open Scope string_scope.
Local Open Scope ring_scope.
Opaque run diff diff1 ddiff ddiff1 nz axr axr1 two_photon one_photon.

(** ** C230: the shipped T1 and T2 equations are the plain ones if G = 0 *)

Theorem C230_t1 (F : numFieldType) (D : nat -> nat) (c : cfg) (E : env F) a i :
  (0 < nf1 c)%N -> (0 < nf2 c)%N -> arrays_ok E -> G_zero E ->
  run D c opt_T1T2 E "T1" [:: a; i] = run D c ref_T1 E "T1" [:: a; i].
Proof.
move=> h1 h2 hE hG; rewrite (run_clamp D c E sT) (run_clamp D c E sR1).
exact: (sameP (char2 F) D hE (zG hG) (by_cfg f_T1 (p11c h1 h2))).
Qed.
Print Assumptions C230_t1.

Theorem C230_t2 (F : numFieldType) (D : nat -> nat) (c : cfg) (E : env F) a b i j :
  (0 < nf1 c)%N -> (0 < nf2 c)%N -> arrays_ok E -> G_zero E ->
  run D c opt_T1T2 E "T2" [:: a; b; i; j] = run D c ref_T2 E "T2" [:: a; b; i; j].
Proof.
move=> h1 h2 hE hG; rewrite (run_clamp D c E sT) (run_clamp D c E sR2).
exact: (sameP (char2 F) D hE (zG hG) (by_cfg f_T2 (p11c h1 h2))).
Qed.
Print Assumptions C230_t2.

(** Without the hypothesis on G (which ccsd.py sets to zero) they differ. *)
Theorem C230_t1_any_G_refuted :
  exists (D : nat -> nat) (c : cfg) (E : env [numFieldType of rat]),
    arrays_ok E /\
    run D c opt_T1T2 E "T1" [:: 0%N; 0%N] <> run D c ref_T1 E "T1" [:: 0%N; 0%N].
Proof.
exists D1, c22u, (ratenv (wit (onG 1 idn e00 zz))); split; first exact: wit_ok.
exact: (nz_run (wit_ok _) n_T1 (erefl _)).
Qed.
Print Assumptions C230_t1_any_G_refuted.

(** ** C231: without coupling they are the equations of CCSD *)

Theorem C231_singles (F : numFieldType) (D : nat -> nat) (c : cfg) (E : env F) a i :
  (0 < nf1 c)%N -> (0 < nf2 c)%N -> arrays_ok E -> uncoupled E ->
  run D c opt_T1T2 E "T1" [:: a; i] = run D c sgbw E "R1" [:: a; i].
Proof.
move=> h1 h2 hE hG; rewrite (run_clamp D c E sT) (run_clamp D c E sC).
exact: (sameP (char2 F) D hE (zU hG) (by_cfg f_ccsd1 (p11c h1 h2))).
Qed.
Print Assumptions C231_singles.

Theorem C231_doubles (F : numFieldType) (D : nat -> nat) (c : cfg) (E : env F) a b i j :
  (0 < nf1 c)%N -> (0 < nf2 c)%N -> arrays_ok E -> uncoupled E ->
  run D c opt_T1T2 E "T2" [:: a; b; i; j] = run D c sgbw E "R2" [:: a; b; i; j].
Proof.
move=> h1 h2 hE hG; rewrite (run_clamp D c E sT) (run_clamp D c E sC).
exact: (sameP (char2 F) D hE (zU hG) (by_cfg f_ccsd2 (p11c h1 h2))).
Qed.
Print Assumptions C231_doubles.

(** ** C232: residuals of doubles are antisymmetric *)

Theorem C232_T2 (F : numFieldType) (D : nat -> nat) (c : cfg) (E : env F) a b i j :
  (0 < nf1 c)%N -> (0 < nf2 c)%N -> arrays_ok E ->
  run D c opt_T1T2 E "T2" [:: a; b; i; j] = - run D c opt_T1T2 E "T2" [:: b; a; i; j] /\
  run D c opt_T1T2 E "T2" [:: a; b; i; j] = - run D c opt_T1T2 E "T2" [:: a; b; j; i].
Proof.
move=> h1 h2 hE; rewrite !(run_clamp D c E sT).
have /andP [f1 f2] := by_cfg f_antiT (p11c h1 h2).
have e1 := sameP (ix := [:: a; b; i; j]) (char2 F) D hE (@z0 _ E) f1 (erefl _).
have e2 := sameP (ix := [:: a; b; i; j]) (char2 F) D hE (@z0 _ E) f2 (erefl _).
by split; [rewrite e1|rewrite e2]; rewrite run_swapped // mulN1r.
Qed.
Print Assumptions C232_T2.

Theorem C232_U2 (F : numFieldType) (D : nat -> nat) (c : cfg) (E : env F) x a b i j :
  (0 < nf1 c)%N -> (0 < nf2 c)%N -> u2 c -> arrays_ok E ->
  let U := run D c (imds_build ++ opt_U2n)%SEQ E "U2n[0]" in
  U [:: x; a; b; i; j] = - U [:: x; b; a; i; j] /\
  U [:: x; a; b; i; j] = - U [:: x; a; b; j; i].
Proof.
move=> h1 h2 h3 hE U; rewrite /U -/optU2 !(run_clamp D c E sO2).
have /andP [f1 f2] := by_cfg f_antiU (p11uc h1 h2 h3).
have e1 := sameP (ix := [:: x; a; b; i; j]) (char2 F) D hE (@z0 _ E) f1 (erefl _).
have e2 := sameP (ix := [:: x; a; b; i; j]) (char2 F) D hE (@z0 _ E) f2 (erefl _).
by split; [rewrite e1|rewrite e2]; rewrite run_swapped // mulN1r.
Qed.
Print Assumptions C232_U2.

Theorem C232_U22 (F : numFieldType) (D : nat -> nat) (c : cfg) (E : env F) a b i j :
  (0 < nf1 c)%N -> (1 < nf2 c)%N -> u2 c -> arrays_ok E ->
  let U := run D c (imds_build ++ opt_U2n)%SEQ E "U22" in
  U [:: a; b; i; j] = - U [:: b; a; i; j] /\
  U [:: a; b; i; j] = - U [:: a; b; j; i].
Proof.
move=> h1 h2 h3 hE U; rewrite /U -/optU2 !(run_clamp D c E sO2).
have /andP [f1 f2] := by_cfg f_antiV (p12uc h1 h2 h3).
have e1 := sameP (ix := [:: a; b; i; j]) (char2 F) D hE (@z0 _ E) f1 (erefl _).
have e2 := sameP (ix := [:: a; b; i; j]) (char2 F) D hE (@z0 _ E) f2 (erefl _).
by split; [rewrite e1|rewrite e2]; rewrite run_swapped // mulN1r.
Qed.
Print Assumptions C232_U22.

(** ** C233: the photon amplitudes, as derivatives of the energy *)

Theorem C233_one (F : numFieldType) (D : nat -> nat) (c : cfg) (E : env F) y :
  (0 < nf1 c)%N -> (0 < nf2 c)%N -> (y < D 2)%N -> arrays_ok E -> G_zero E ->
  exists d, one_photon D c energy "E" E y [::] d /\
    mask1 (fun x => E "w" [:: x]) (run D c (imds_build ++ opt_Sn)%SEQ E "S1") [:: y]
    = if E "w" [:: y] == 0 then 0 else E "w" [:: y] * E "Snold[0]" [:: y] + d.
Proof.
move=> h1 h2 hy hE hG; rewrite -/optS (run_clamp D c E sOS).
have [d [e1 e2]] := one_same (ix := [::]) (char2 F) hE (zG hG) nodG (by_cfg f_S1 (p11c h1 h2))
  hy (erefl _).
exists d; split; first exact: one_photon_clamp sEn e1.
by rewrite /mask1 /=; case: ifP => // _; rewrite e2 wS1P.
Qed.
Print Assumptions C233_one.

Theorem C233_two (F : numFieldType) (D : nat -> nat) (c : cfg) (E : env F) y z :
  (1 < nf1 c)%N -> (0 < nf2 c)%N -> (y < D 2)%N -> (z < D 2)%N -> arrays_ok E -> G_zero E ->
  exists d, two_photon D c energy "E" E y z [::] d /\
    mask2 (fun x => E "w" [:: x]) (run D c (imds_build ++ opt_Sn)%SEQ E "S2") [:: y; z]
    = if (y == z) && (E "w" [:: y] == 0) then 0
      else (E "w" [:: y] + E "w" [:: z]) * E "Snold[1]" [:: y; z] + d.
Proof.
move=> h1 h2 hy hz hE hG; rewrite -/optS (run_clamp D c E sOS).
have [d [e1 e2]] := two_same (ix := [::]) (char2 F) hE (zG hG) nodG (by_cfg f_S2 (p21c h1 h2))
  hy hz (erefl _).
exists d; split; first exact: two_photon_clamp sEn e1.
by rewrite /mask2 /=; case: ifP => // _; rewrite e2 wS2P.
Qed.
Print Assumptions C233_two.

(** ** C234: singles with one photon *)

Theorem C234_singles (F : numFieldType) (D : nat -> nat) (c : cfg) (E : env F) y a i :
  (0 < nf1 c)%N -> (0 < nf2 c)%N -> (y < D 2)%N -> arrays_ok E -> G_zero E ->
  exists d, one_photon D c opt_T1T2 "T1" E y [:: a; i] d /\
    run D c (imds_build ++ opt_U1n)%SEQ E "U1n[0]" [:: y; a; i]
    = E "w" [:: y] * E "U1nold[0]" [:: y; a; i] + d.
Proof.
move=> h1 h2 hy hE hG; rewrite -/optU1 (run_clamp D c E sO1).
have [d [e1 e2]] := one_same (ix := [:: a; i]) (char2 F) hE (zG hG) nodG
  (by_cfg f_U1 (p11c h1 h2)) hy (erefl _).
exists d; split; first exact: one_photon_clamp sT e1.
by rewrite e2 wU1P.
Qed.
Print Assumptions C234_singles.

(** The derivative in the statements is the only one. *)
Theorem C234_unique (F : numFieldType) (D : nat -> nat) c p n (E : env F) y ix d d' :
  one_photon D c p n E y ix d -> one_photon D c p n E y ix d' -> d = d'.
Proof. exact: deriv0_uniq. Qed.
Print Assumptions C234_unique.

(** ** C235: doubles with one photon *)

Theorem C235_nfock2_1_partial (F : numFieldType) (D : nat -> nat) (c : cfg) (E : env F) y a b i j :
  (0 < nf1 c)%N -> nf2 c = 1%N -> u2 c -> (y < D 2)%N -> arrays_ok E -> G_zero E ->
  exists d, one_photon D c opt_T1T2 "T2" E y [:: a; b; i; j] d /\
    run D c (imds_build ++ opt_U2n)%SEQ E "U2n[0]" [:: y; a; b; i; j]
    = E "w" [:: y] * E "U2nold[0]" [:: y; a; b; i; j] + d.
Proof.
move=> h1 h2 h3 hy hE hG; rewrite -/optU2 (run_clamp D c E sO2).
have [d [e1 e2]] := one_same (ix := [:: a; b; i; j]) (char2 F) hE (zG hG) nodG
  (by_cfg f_U2 (p111c h1 h2 h3)) hy (erefl _).
exists d; split; first exact: one_photon_clamp sT e1.
by rewrite e2 wU2P.
Qed.
Print Assumptions C235_nfock2_1_partial.

Theorem C235_one_mode_partial (F : numFieldType) (D : nat -> nat) (c : cfg) (E : env F) a b i j :
  (0 < nf1 c)%N -> (0 < nf2 c)%N -> u2 c -> D 2%N = 1%N -> arrays_ok E -> G_zero E ->
  exists d, one_photon D c opt_T1T2 "T2" E 0 [:: a; b; i; j] d /\
    run D c (imds_build ++ opt_U2n)%SEQ E "U2n[0]" [:: 0%N; a; b; i; j]
    = E "w" [:: 0%N] * E "U2nold[0]" [:: 0%N; a; b; i; j] + d.
Proof.
move=> h1 h2 h3 hy hE hG; rewrite -/optU2 (run_clamp D c E sO2).
have /eqP f := by_cfg f_U2one (p11uc h1 h2 h3).
have [d [e1 e2]] := one_diff1 (ix := [:: a; b; i; j]) (char2 F) hE (zG hG) nodG hy f (erefl _).
exists d; split; first exact: one_photon_clamp sT e1.
by rewrite -[[:: 0%N; a; b; i; j]]/(nseq 1 0%N ++ [:: a; b; i; j])%SEQ e2 wU2P evl0 addr0.
Qed.
Print Assumptions C235_one_mode_partial.

(** The plain equations are right for any number of modes. *)
Theorem C235_plain (F : numFieldType) (D : nat -> nat) (c : cfg) (E : env F) y a b i j :
  (0 < nf1 c)%N -> (0 < nf2 c)%N -> u2 c -> (y < D 2)%N -> arrays_ok E -> G_zero E ->
  exists d, one_photon D c opt_T1T2 "T2" E y [:: a; b; i; j] d /\
    run D c ref_U2n E "U2n[0]" [:: y; a; b; i; j]
    = E "w" [:: y] * E "U2nold[0]" [:: y; a; b; i; j] + d.
Proof.
move=> h1 h2 h3 hy hE hG; rewrite (run_clamp D c E sP2).
have [d [e1 e2]] := one_same (ix := [:: a; b; i; j]) (char2 F) hE (zG hG) nodG
  (by_cfg f_refU2 (p11uc h1 h2 h3)) hy (erefl _).
exists d; split; first exact: one_photon_clamp sT e1.
by rewrite e2 wU2P.
Qed.
Print Assumptions C235_plain.

(** The shipped equations are wrong for two modes and nfock2 = 2. *)
Theorem C235_two_modes_refuted :
  exists (D : nat -> nat) (c : cfg) (E : env [numFieldType of rat]) (d : rat),
    let ix := [:: 0%N; 1%N; 0%N; 1%N] in
    [/\ D 2%N = 2%N, arrays_ok E, G_zero E,
        one_photon D c opt_T1T2 "T2" E 0 ix d
      & run D c (imds_build ++ opt_U2n)%SEQ E "U2n[0]" (0%N :: ix)
        <> E "w" [:: 0%N] * E "U2nold[0]" (0%N :: ix) + d].
Proof.
have hE : arrays_ok (ratenv (wit (onG 0 idn zz e00))) by exact: wit_ok.
have hG : G_zero (ratenv (wit (onG 0 idn zz e00))) by apply: wit_G.
have [d [e1 e2]] := nz_one hE hG n_U2 (isT : (0 < D2 2)%N) (erefl _).
exists D2, c12u, (ratenv (wit (onG 0 idn zz e00))), d; split=> //.
by rewrite -/optU2 -(wU2P D2 c12u).
Qed.
Print Assumptions C235_two_modes_refuted.

(** ** C236: singles with two photons *)

(** The shipped equations, one mode, no coupled doubles: everything but one
    term. *)
Theorem C236_one_mode_partial (F : numFieldType) (D : nat -> nat) (c : cfg) (E : env F) a i :
  (0 < nf1 c)%N -> (1 < nf2 c)%N -> ~~ u2 c -> D 2%N = 1%N -> arrays_ok E -> G_zero E ->
  exists d, two_photon D c opt_T1T2 "T1" E 0 0 [:: a; i] d /\
    run D c (imds_build ++ opt_U1n)%SEQ E "U1n[1]" [:: 0%N; 0%N; a; i]
    = (E "w" [:: 0%N] + E "w" [:: 0%N]) * E "U1nold[1]" [:: 0%N; 0%N; a; i] + d
      - 2%:R^-1 * (\sum_(k < D 0%N) \sum_(l < D 0%N) \sum_(e < D 1%N) \sum_(f < D 1%N)
          E "I.oovv" [:: nat_of_ord k; nat_of_ord l; nat_of_ord e; nat_of_ord f]
          * E "T2old" [:: a; nat_of_ord e; i; nat_of_ord k]
          * E "U1nold[1]" [:: 0%N; 0%N; nat_of_ord f; nat_of_ord l]).
Proof.
move=> h1 h2 h3 hy hE hG; rewrite -/optU1 (run_clamp D c E sO1).
have /eqP f := by_cfg f_optU12 (p12nc h1 h2 h3).
have [d [e1 e2]] := two_diff1 (ix := [:: a; i]) (char2 F) hE (zG hG) nodG hy f (erefl _).
exists d; split; first exact: two_photon_clamp sT e1.
rewrite -[[:: 0%N; 0%N; a; i]]/(nseq 2 0%N ++ [:: a; i])%SEQ e2 wU11P; congr (_ + _).
by rewrite (axrP a i (p12c h1 h2)) extraP.
Qed.
Print Assumptions C236_one_mode_partial.

Theorem C236_one_mode_refuted :
  exists (D : nat -> nat) (c : cfg) (E : env [numFieldType of rat]) (d : rat),
    [/\ D 2%N = 1%N, arrays_ok E, G_zero E,
        two_photon D c opt_T1T2 "T1" E 0 0 [:: 0%N; 0%N] d
      & run D c (imds_build ++ opt_U1n)%SEQ E "U1n[1]" [:: 0%N; 0%N; 0%N; 0%N]
        <> (E "w" [:: 0%N] + E "w" [:: 0%N]) * E "U1nold[1]" [:: 0%N; 0%N; 0%N; 0%N] + d].
Proof.
have hE : arrays_ok (ratenv (wit (onG 0 idn zz e00))) by exact: wit_ok.
have hG : G_zero (ratenv (wit (onG 0 idn zz e00))) by apply: wit_G.
have [d [e1 e2]] := nz_two1 hE hG (erefl : D1 2 = 1%N) n_U12 (erefl _).
exists D1, c12n, (ratenv (wit (onG 0 idn zz e00))), d; split=> //.
by rewrite -/optU1 -(wU11P D1 c12n).
Qed.
Print Assumptions C236_one_mode_refuted.

(** The plain equations without coupled doubles, and the single-mode function
    in all cases. *)
Theorem C236_plain_partial (F : numFieldType) (D : nat -> nat) (c : cfg) (E : env F) y z a i :
  (0 < nf1 c)%N -> (1 < nf2 c)%N -> ~~ u2 c -> (y < D 2)%N -> (z < D 2)%N ->
  arrays_ok E -> G_zero E ->
  exists d, two_photon D c opt_T1T2 "T1" E y z [:: a; i] d /\
    run D c ref_U1n E "U1n[1]" [:: y; z; a; i]
    = (E "w" [:: y] + E "w" [:: z]) * E "U1nold[1]" [:: y; z; a; i] + d.
Proof.
move=> h1 h2 h3 hy hz hE hG; rewrite (run_clamp D c E sP1).
have [d [e1 e2]] := two_same (ix := [:: a; i]) (char2 F) hE (zG hG) nodG
  (by_cfg f_refU12 (p12nc h1 h2 h3)) hy hz (erefl _).
exists d; split; first exact: two_photon_clamp sT e1.
by rewrite e2 wU11P.
Qed.
Print Assumptions C236_plain_partial.

Theorem C236_single_mode (F : numFieldType) (D : nat -> nat) (c : cfg) (E : env F) a i :
  (0 < nf1 c)%N -> (1 < nf2 c)%N -> D 2%N = 1%N -> arrays_ok E -> G_zero E ->
  exists d, two_photon D c opt_T1T2 "T1" E 0 0 [:: a; i] d /\
    run D c ref_single_U1n E "U12" [:: a; i]
    = (E "w" [:: 0%N] + E "w" [:: 0%N]) * E "U1nold[1]" [:: 0%N; 0%N; a; i] + d.
Proof.
move=> h1 h2 hy hE hG; rewrite (run_clamp D c E sG1).
have /eqP f := by_cfg f_sglU12 (p12c h1 h2).
have [d [e1 e2]] := two_diff1 (ix := [:: a; i]) (char2 F) hE (zG hG) nodG hy f (erefl _).
exists d; split; first exact: two_photon_clamp sT e1.
by rewrite -[[:: a; i]]/(nseq 0 0%N ++ [:: a; i])%SEQ e2 wU11P evl0 addr0.
Qed.
Print Assumptions C236_single_mode.

Theorem C236_plain_with_doubles_refuted :
  exists (D : nat -> nat) (c : cfg) (E : env [numFieldType of rat]) (d : rat),
    [/\ D 2%N = 1%N, arrays_ok E, G_zero E,
        two_photon D c opt_T1T2 "T1" E 0 0 [:: 0%N; 0%N] d
      & run D c ref_U1n E "U1n[1]" [:: 0%N; 0%N; 0%N; 0%N]
        <> (E "w" [:: 0%N] + E "w" [:: 0%N]) * E "U1nold[1]" [:: 0%N; 0%N; 0%N; 0%N] + d].
Proof.
have hE : arrays_ok (ratenv (wit (onG 0 zz e00 zz))) by exact: wit_ok.
have hG : G_zero (ratenv (wit (onG 0 zz e00 zz))) by apply: wit_G.
have [d [e1 e2]] := nz_two1 hE hG (erefl : D1 2 = 1%N) n_refU12 (erefl _).
exists D1, c22u, (ratenv (wit (onG 0 zz e00 zz))), d; split=> //.
by rewrite -(wU11P D1 c22u).
Qed.
Print Assumptions C236_plain_with_doubles_refuted.

(** ** C237: doubles with two photons *)

Theorem C237_doubles_refuted :
  exists (D : nat -> nat) (c : cfg) (E : env [numFieldType of rat]) (d : rat),
    let ix := [:: 0%N; 1%N; 0%N; 1%N] in
    [/\ D 2%N = 1%N, arrays_ok E, G_zero E,
        two_photon D c opt_T1T2 "T2" E 0 0 ix d
      & run D c (imds_build ++ opt_U2n)%SEQ E "U22" ix
        <> (E "w" [:: 0%N] + E "w" [:: 0%N]) * E "U2nold[1]" [:: 0%N, 0%N & ix] + d].
Proof.
have hE : arrays_ok (ratenv (wit (onG 0 idn zz e00))) by exact: wit_ok.
have hG : G_zero (ratenv (wit (onG 0 idn zz e00))) by apply: wit_G.
have [d [e1 e2]] := nz_two1 hE hG (erefl : D1 2 = 1%N) n_U22 (erefl _).
exists D1, c22u, (ratenv (wit (onG 0 idn zz e00))), d; split=> //.
by rewrite -/optU2 -(wU22P D1 c22u).
Qed.
Print Assumptions C237_doubles_refuted.

(** ** C238: several modes, two photons *)

Theorem C238_symmetric_refuted :
  exists (D : nat -> nat) (c : cfg) (E : env [numFieldType of rat]),
    let U := run D c (imds_build ++ opt_U1n)%SEQ E "U1n[1]" in
    [/\ D 2%N = 2%N, arrays_ok E, G_zero E
      & U [:: 0%N; 1%N; 0%N; 0%N] <> U [:: 1%N; 0%N; 0%N; 0%N]].
Proof.
have hE : arrays_ok (ratenv (wit (onG 0 idn e00 zz))) by exact: wit_ok.
have hG : G_zero (ratenv (wit (onG 0 idn e00 zz))) by apply: wit_G.
have := nz_run (ix := [:: 0%N; 1%N; 0%N; 0%N]) hE n_sym (erefl _).
rewrite run_swapped // mul1r => he.
by exists D2, c12n, (ratenv (wit (onG 0 idn e00 zz))); split.
Qed.
Print Assumptions C238_symmetric_refuted.

Theorem C238_equation_refuted :
  exists (D : nat -> nat) (c : cfg) (E : env [numFieldType of rat]) (d : rat),
    [/\ D 2%N = 2%N, arrays_ok E, G_zero E,
        two_photon D c opt_T1T2 "T1" E 0 1 [:: 0%N; 0%N] d
      & run D c (imds_build ++ opt_U1n)%SEQ E "U1n[1]" [:: 0%N; 1%N; 0%N; 0%N]
        <> (E "w" [:: 0%N] + E "w" [:: 1%N]) * E "U1nold[1]" [:: 0%N; 1%N; 0%N; 0%N] + d].
Proof.
have hE : arrays_ok (ratenv (wit (onG 0 idn zz e00))) by exact: wit_ok.
have hG : G_zero (ratenv (wit (onG 0 idn zz e00))) by apply: wit_G.
have [d [e1 e2]] := nz_two hE hG n_U12w (isT : (0 < D2 2)%N) (isT : (1 < D2 2)%N) (erefl _).
exists D2, c12n, (ratenv (wit (onG 0 idn zz e00))), d; split=> //.
by rewrite -/optU1 -(wU11P D2 c12n).
Qed.
Print Assumptions C238_equation_refuted.

(** ** C239: the functions for a single mode *)

Theorem C239_singles (F : numFieldType) (D : nat -> nat) (c : cfg) (E : env F) a i :
  (0 < nf1 c)%N -> (0 < nf2 c)%N -> D 2%N = 1%N -> arrays_ok E -> G_zero E ->
  run D c ref_single_U1n E "U11" [:: a; i]
  = run D c (imds_build ++ opt_U1n)%SEQ E "U1n[0]" [:: 0%N; a; i].
Proof.
move=> h1 h2 hy hE hG; rewrite -/optU1 (run_clamp D c E sO1) (run_clamp D c E sG1).
have /eqP f := by_cfg f_sglU11 (p11c h1 h2).
have [d [e1 e2]] := one_diff1 (ix := [:: a; i]) (char2 F) hE (zG hG) nodG hy f (erefl _).
have h0 : (0 < D 2)%N by rewrite hy.
have [d' [k1 k2]] := one_same (ix := [:: a; i]) (char2 F) hE (zG hG) nodG
  (by_cfg f_U1 (p11c h1 h2)) h0 (erefl _).
rewrite k2 -(deriv0_uniq e1 k1).
by rewrite -[[:: a; i]]/(nseq 0 0%N ++ [:: a; i])%SEQ e2 evl0 addr0.
Qed.
Print Assumptions C239_singles.

Theorem C239_doubles_refuted :
  exists (D : nat -> nat) (c : cfg) (E : env [numFieldType of rat]) (d : rat),
    let ix := [:: 0%N; 1%N; 0%N; 1%N] in
    [/\ D 2%N = 1%N, arrays_ok E, G_zero E,
        one_photon D c opt_T1T2 "T2" E 0 ix d
      & run D c ref_single_U2n E "U21" ix
        <> E "w" [:: 0%N] * E "U2nold[0]" (0%N :: ix) + d].
Proof.
have hE : arrays_ok (ratenv (wit (onG 0 idn e00 zz))) by exact: wit_ok.
have hG : G_zero (ratenv (wit (onG 0 idn e00 zz))) by apply: wit_G.
have [d [e1 e2]] := nz_one1 hE hG (erefl : D1 2 = 1%N) n_sglU21 (erefl _).
exists D1, c22u, (ratenv (wit (onG 0 idn e00 zz))), d; split=> //.
by rewrite -(wU2P D1 c22u).
Qed.
Print Assumptions C239_doubles_refuted.

(** The single-mode and the plain multi-mode function disagree on U22. *)
Theorem C239_U22_refuted :
  exists (D : nat -> nat) (c : cfg) (E : env [numFieldType of rat]),
    let ix := [:: 0%N; 1%N; 0%N; 1%N] in
    [/\ D 2%N = 1%N, arrays_ok E, G_zero E
      & run D c ref_U2n E "U22" ix <> run D c ref_single_U2n E "U22" ix].
Proof.
have hE : arrays_ok (ratenv (wit (onG 0 idn e00 zz))) by exact: wit_ok.
have hG : G_zero (ratenv (wit (onG 0 idn e00 zz))) by apply: wit_G.
exists D1, c22u, (ratenv (wit (onG 0 idn e00 zz))); split=> //.
exact: (nz_run1 hE (erefl : D1 2 = 1%N) n_sglU22 (erefl _)).
Qed.
Print Assumptions C239_U22_refuted.

(** ** C240: calls that fail *)

(** With photons and coupled amplitudes a call ends exactly if the lengths of
    [eps_vir] and [w] can be broadcast. *)
Theorem C240_shapes (c : cfg) (nv nm : nat) : (0 < nf1 c)%N -> (0 < nf2 c)%N ->
  call_ok c (imds_build ++ opt_T1T2 ++ opt_Sn ++ opt_U1n ++ opt_U2n)%SEQ nv nm
  = isSome (bcast nv nm).
Proof.
move=> h1 h2; rewrite /call_ok -/all_opt (live_clamp c sA).
by rewrite (by_cfg f_chk (p11c h1 h2)) /= eqn0Ngt h2.
Qed.
Print Assumptions C240_shapes.

Theorem C240_one_mode (c : cfg) (nv : nat) : (0 < nf1 c)%N -> (0 < nf2 c)%N ->
  call_ok c (imds_build ++ opt_T1T2 ++ opt_Sn ++ opt_U1n ++ opt_U2n)%SEQ nv 1.
Proof. by move=> h1 h2; rewrite C240_shapes // /bcast; case: ifP => // _; case: ifP. Qed.
Print Assumptions C240_one_mode.

(** Two modes and three virtual orbitals: every call raises. *)
Theorem C240_modes_refuted :
  exists nv nm, forall c, (0 < nf1 c)%N -> (0 < nf2 c)%N ->
    ~~ call_ok c (imds_build ++ opt_T1T2 ++ opt_Sn ++ opt_U1n ++ opt_U2n)%SEQ nv nm.
Proof. by exists 3%N, 2%N => c h1 h2; rewrite C240_shapes. Qed.
Print Assumptions C240_modes_refuted.

(** nfock1 = 0 (no photon amplitudes): every call raises. *)
Theorem C240_nfock1_refuted :
  exists n, forall k u nv nm,
    ~~ call_ok (Cfg n k u) (imds_build ++ opt_T1T2 ++ opt_Sn ++ opt_U1n ++ opt_U2n)%SEQ nv nm.
Proof.
exists 0%N => k u nv nm; rewrite /call_ok -/all_opt (live_clamp _ sA).
have h : ~~ (p11 (clampc (Cfg 0 k u)) || ((0 < nf1 (clampc (Cfg 0 k u))) && (1 < nf1 (clampc (Cfg 0 k u)))))%N.
  by [].
by rewrite (negbTE (by_cfg (pre := fun c => ~~ (p11 c || ((0 < nf1 c) && (1 < nf1 c)))%N) f_chk0 h)).
Qed.
Print Assumptions C240_nfock1_refuted.

(** ** C241: stationary points of the cycle *)

(** At a stationary point the energy of the photon is counted twice. *)
Theorem C241_doubled_partial (F : numFieldType) (D : nat -> nat) (c : cfg) (E : env F) (eo ev : F) y a i :
  (0 < nf1 c)%N -> (0 < nf2 c)%N -> (y < D 2)%N -> arrays_ok E -> G_zero E ->
  eo - ev - E "w" [:: y] != 0 ->
  E "U1nold[0]" [:: y; a; i]
  = cycle (run D c (imds_build ++ opt_U1n)%SEQ E "U1n[0]" [:: y; a; i]) (eo - ev - E "w" [:: y]) ->
  exists d, one_photon D c opt_T1T2 "T1" E y [:: a; i] d /\
    (eo - ev - E "w" [:: y] - E "w" [:: y]) * E "U1nold[0]" [:: y; a; i] = d.
Proof.
move=> h1 h2 hy hE hG hd hfix.
have [d [e1 e2]] := C234_singles a i h1 h2 hy hE hG.
exists d; split=> //; rewrite mulrBl.
rewrite {1}hfix /cycle e2 mulrCA mulfV // mulr1.
by rewrite addrC addKr.
Qed.
Print Assumptions C241_doubled_partial.

(** The equation with one photon is (eo - ev - w) U = d; a stationary point of
    the cycle need not solve it. *)
Theorem C241_stationary_refuted :
  exists (D : nat -> nat) (c : cfg) (E : env [numFieldType of rat]) (e d : rat),
    let U := E "U1nold[0]" [:: 0%N; 0%N; 0%N] in
    let w := E "w" [:: 0%N] in
    [/\ arrays_ok E /\ G_zero E, one_photon D c opt_T1T2 "T1" E 0 [:: 0%N; 0%N] d,
        e - w != 0,
        U = cycle (run D c (imds_build ++ opt_U1n)%SEQ E "U1n[0]" [:: 0%N; 0%N; 0%N]) (e - w)
      & (e - w) * U <> d].
Proof.
pose E := ratenv (wit onF).
have hE : arrays_ok E by exact: wit_ok.
have hG : G_zero E by apply: wit_G.
have [d [e1 e2]] := @C234_singles [numFieldType of rat] D0 (Cfg 1 1 false) E 0%N 0%N 0%N isT isT isT hE hG.
have hr := runiP v_fix; rewrite -/optU1 -/E hr in e2.
have hU : E "U1nold[0]" [:: 0%N; 0%N; 0%N] = 1 by [].
have hw : E "w" [:: 0%N] = 1 by [].
exists D0, (Cfg 1 1 false), E, (- 3%:R), d; split.
- by split.
- exact: e1.
- by rewrite hw q3 oppr_eq0.
- by rewrite hU hw -/optU1 hr q3 /cycle q4 divff ?oppr_eq0.
rewrite hU hw q3 mulr1 => hd; move: e2; rewrite hU hw mulr1 q4 -hd => /esym/eqP.
by rewrite -subr_eq0 addrK oner_eq0.
Qed.
Print Assumptions C241_stationary_refuted.
