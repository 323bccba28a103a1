(** The computations behind the theorems of QccProps.v: differences of sums of
    terms, for each of the finitely many configurations. *)
From Coq Require Import String Ascii.
From mathcomp Require Import all_ssreflect all_algebra.
From Verif Require Import QccModel QccCode QccSpec QccSym QccNorm QccDer QccProofs.
Set Implicit Arguments.
Unset Strict Implicit.
Unset Printing Implicit Defensive.
Import GRing.Theory Num.Theory.
Open Scope string_scope.
Open Scope nat_scope.
Open Scope seq_scope.

(** Energies of the photons times the amplitudes. *)
Definition wS1 : prog := [:: "R" :== Ein "x,x->x" [:: ("w", 0); ("Snold[0]", 0)]].
Definition wS2 : prog :=
  [:: "R" :== Ein "x,xy->xy" [:: ("w", 0); ("Snold[1]", 0)];
      "R" +== Ein "y,xy->xy" [:: ("w", 0); ("Snold[1]", 0)]].
Definition wU1 : prog := [:: "R" :== Ein "x,xai->xai" [:: ("w", 0); ("U1nold[0]", 0)]].
Definition wU2 : prog := [:: "R" :== Ein "x,xabij->xabij" [:: ("w", 0); ("U2nold[0]", 0)]].
Definition wU11 : prog :=
  [:: "R" :== Ein "x,xyai->xyai" [:: ("w", 0); ("U1nold[1]", 0)];
      "R" +== Ein "y,xyai->xyai" [:: ("w", 0); ("U1nold[1]", 0)]].
Definition wU22 : prog :=
  [:: "R" :== Ein "x,xyabij->xyabij" [:: ("w", 0); ("U2nold[1]", 0)];
      "R" +== Ein "y,xyabij->xyabij" [:: ("w", 0); ("U2nold[1]", 0)]].
Definition optS : prog := imds_build ++ opt_Sn.
Definition optU1 : prog := imds_build ++ opt_U1n.
Definition optU2 : prog := imds_build ++ opt_U2n.
(** A result with two axes exchanged, with the opposite sign if [neg]. *)
Definition swapped (neg : bool) (n : string) (pm : seq nat) : prog :=
  [:: "Q" :== Sc (if neg then (-1)%R else 1%R) 0 (Tr pm (At (n, 0)))].

Definition p1 (c : cfg) := (0 < nf1 c).
Definition p11 (c : cfg) := (0 < nf1 c) && (0 < nf2 c).
Definition p111 (c : cfg) := [&& 0 < nf1 c, nf2 c == 1 & u2 c].
Definition p11u (c : cfg) := [&& 0 < nf1 c, 0 < nf2 c & u2 c].
Definition p21 (c : cfg) := (1 < nf1 c) && (0 < nf2 c).
Definition p12 (c : cfg) := (0 < nf1 c) && (1 < nf2 c).
Definition p12n (c : cfg) := [&& 0 < nf1 c, 1 < nf2 c & ~~ u2 c].
Definition p12u (c : cfg) := [&& 0 < nf1 c, 1 < nf2 c & u2 c].
Notation zero0 := (Some [::]).

Lemma f_T1 : all (fun c => p11 c ==> same c opt_T1T2 "T1" ref_T1 "T1" [:: "G"] 2) cfgs.
Proof. vm_cast_no_check (erefl true). Qed.
Lemma f_T2 : all (fun c => p11 c ==> same c opt_T1T2 "T2" ref_T2 "T2" [:: "G"] 4) cfgs.
Proof. vm_cast_no_check (erefl true). Qed.
Definition Z0 : seq string :=
  [:: "G"; "g.oo"; "g.ov"; "g.vo"; "g.vv"; "h.oo"; "h.ov"; "h.vo"; "h.vv"].
Lemma f_ccsd1 : all (fun c => p11 c ==> same c opt_T1T2 "T1" sgbw "R1" Z0 2) cfgs.
Proof. vm_cast_no_check (erefl true). Qed.
Lemma f_ccsd2 : all (fun c => p11 c ==> same c opt_T1T2 "T2" sgbw "R2" Z0 4) cfgs.
Proof. vm_cast_no_check (erefl true). Qed.

Lemma f_antiT : all (fun c => p11 c ==>
  same c opt_T1T2 "T2" (opt_T1T2 ++ swapped true "T2" [:: 1; 0; 2; 3]) "Q" [::] 4 &&
  same c opt_T1T2 "T2" (opt_T1T2 ++ swapped true "T2" [:: 0; 1; 3; 2]) "Q" [::] 4) cfgs.
Proof. vm_cast_no_check (erefl true). Qed.
Lemma f_antiU : all (fun c => p11u c ==>
  same c optU2 "U2n[0]" (optU2 ++ swapped true "U2n[0]" [:: 0; 2; 1; 3; 4]) "Q" [::] 5 &&
  same c optU2 "U2n[0]" (optU2 ++ swapped true "U2n[0]" [:: 0; 1; 2; 4; 3]) "Q" [::] 5) cfgs.
Proof. vm_cast_no_check (erefl true). Qed.
Lemma f_antiV : all (fun c => p12u c ==>
  same c optU2 "U22" (optU2 ++ swapped true "U22" [:: 1; 0; 2; 3]) "Q" [::] 4 &&
  same c optU2 "U22" (optU2 ++ swapped true "U22" [:: 0; 1; 3; 2]) "Q" [::] 4) cfgs.
Proof. vm_cast_no_check (erefl true). Qed.

Lemma f_S1 : all (fun c => p11 c ==>
  (ddiff (der1 c energy "E" wS1) c optS "S1" [:: "G"] 1 == zero0)) cfgs.
Proof. vm_cast_no_check (erefl true). Qed.
Lemma f_S2 : all (fun c => p21 c ==>
  (ddiff (der2 c energy "E" wS2) c optS "S2" [:: "G"] 2 == zero0)) cfgs.
Proof. vm_cast_no_check (erefl true). Qed.
Lemma f_U1 : all (fun c => p11 c ==>
  (ddiff (der1 c opt_T1T2 "T1" wU1) c optU1 "U1n[0]" [:: "G"] 3 == zero0)) cfgs.
Proof. vm_cast_no_check (erefl true). Qed.
Lemma f_U2 : all (fun c => p111 c ==>
  (ddiff (der1 c opt_T1T2 "T2" wU2) c optU2 "U2n[0]" [:: "G"] 5 == zero0)) cfgs.
Proof. vm_cast_no_check (erefl true). Qed.
Lemma f_U2one : all (fun c => p11u c ==>
  (ddiff1 (der1 c opt_T1T2 "T2" wU2) c optU2 "U2n[0]" [:: "G"] 1 1 4 == zero0)) cfgs.
Proof. vm_cast_no_check (erefl true). Qed.
Lemma f_refU2 : all (fun c => p11u c ==>
  (ddiff (der1 c opt_T1T2 "T2" wU2) c ref_U2n "U2n[0]" [:: "G"] 5 == zero0)) cfgs.
Proof. vm_cast_no_check (erefl true). Qed.
Lemma f_refU12 : all (fun c => p12n c ==>
  (ddiff (der2 c opt_T1T2 "T1" wU11) c ref_U1n "U1n[1]" [:: "G"] 4 == zero0)) cfgs.
Proof. vm_cast_no_check (erefl true). Qed.
Lemma f_sglU12 : all (fun c => p12 c ==>
  (ddiff1 (der2 c opt_T1T2 "T1" wU11) c ref_single_U1n "U12" [:: "G"] 0 2 2 == zero0)) cfgs.
Proof. vm_cast_no_check (erefl true). Qed.
(** The only term of [opt_U1n] that is wrong for one mode without coupled
    doubles: -1/2 <kl||cd> T2(a c i k) U12(d l). *)
Definition extra : seq (key * int) :=
  [:: ([:: (0, 8); (0, 9); (1, 8); (1, 9)],
       [:: ("I.oovv", [:: (0, 8); (0, 9); (1, 8); (1, 9)]);
           ("T2old", [:: (1, 0); (1, 8); (0, 1); (0, 8)]);
           ("U1nold[1]", [:: (4, 0); (4, 0); (1, 9); (0, 9)])], (-128)%R)].
Lemma f_optU12 : all (fun c => p12n c ==>
  (ddiff1 (der2 c opt_T1T2 "T1" wU11) c optU1 "U1n[1]" [:: "G"] 2 2 2 == Some extra)) cfgs.
Proof. vm_cast_no_check (erefl true). Qed.
Lemma f_sglU11 : all (fun c => p11 c ==>
  (ddiff1 (der1 c opt_T1T2 "T1" wU1) c ref_single_U1n "U11" [:: "G"] 0 1 2 == zero0)) cfgs.
Proof. vm_cast_no_check (erefl true). Qed.

(** Differences that are not zero at a witness. *)
Definition c12n := Cfg 1 2 false.
Definition c12u := Cfg 1 2 true.
Definition c22u := Cfg 2 2 true.
Definition nz (D : nat -> nat) (e : string -> seq nat -> int) (o : option (seq (key * int)))
  (r : asg) : bool :=
  match o with
  | Some l => evli D e r l != 0%R
  | None => false
  end.
Lemma n_T1 : nz D1 (wit (onG 1 idn e00 zz)) (diff c22u opt_T1T2 "T1" ref_T1 "T1" [::] 2)
  (axr c22u opt_T1T2 "T1" [:: 0; 0]).
Proof. vm_cast_no_check (erefl true). Qed.
Lemma n_U12 : nz D1 (wdi (wit (onG 0 idn zz e00)))
  (ddiff1 (der2 c12n opt_T1T2 "T1" wU11) c12n optU1 "U1n[1]" [:: "G"] 2 2 2)
  (axr1 c12n optU1 "U1n[1]" 2 [:: 0; 0]).
Proof. vm_cast_no_check (erefl true). Qed.
Lemma n_U12w : nz D2 (wdi (wit (onG 0 idn zz e00)))
  (ddiff (der2 c12n opt_T1T2 "T1" wU11) c12n optU1 "U1n[1]" [:: "G"] 4)
  (axr c12n optU1 "U1n[1]" [:: 0; 1; 0; 0]).
Proof. vm_cast_no_check (erefl true). Qed.
Lemma n_U2 : nz D2 (wdi (wit (onG 0 idn zz e00)))
  (ddiff (der1 c12u opt_T1T2 "T2" wU2) c12u optU2 "U2n[0]" [:: "G"] 5)
  (axr c12u optU2 "U2n[0]" [:: 0; 0; 1; 0; 1]).
Proof. vm_cast_no_check (erefl true). Qed.
Lemma n_U22 : nz D1 (wdi (wit (onG 0 idn zz e00)))
  (ddiff1 (der2 c22u opt_T1T2 "T2" wU22) c22u optU2 "U22" [:: "G"] 0 2 4)
  (axr1 c22u optU2 "U22" 0 [:: 0; 1; 0; 1]).
Proof. vm_cast_no_check (erefl true). Qed.
Lemma n_refU12 : nz D1 (wdi (wit (onG 0 zz e00 zz)))
  (ddiff1 (der2 c22u opt_T1T2 "T1" wU11) c22u ref_U1n "U1n[1]" [:: "G"] 2 2 2)
  (axr1 c22u ref_U1n "U1n[1]" 2 [:: 0; 0]).
Proof. vm_cast_no_check (erefl true). Qed.
Lemma n_sglU21 : nz D1 (wdi (wit (onG 0 idn e00 zz)))
  (ddiff1 (der1 c22u opt_T1T2 "T2" wU2) c22u ref_single_U2n "U21" [:: "G"] 0 1 4)
  (axr1 c22u ref_single_U2n "U21" 0 [:: 0; 1; 0; 1]).
Proof. vm_cast_no_check (erefl true). Qed.
Lemma n_sglU22 : nz D1 (wit (onG 0 idn e00 zz))
  (diff1 c22u ref_U2n "U22" 0 ref_single_U2n "U22" 0 [::] 4)
  (axr1 c22u ref_U2n "U22" 0 [:: 0; 1; 0; 1]).
Proof. vm_cast_no_check (erefl true). Qed.
Lemma n_sym : nz D2 (wit (onG 0 idn e00 zz))
  (diff c12n optU1 "U1n[1]" (optU1 ++ swapped false "U1n[1]" [:: 1; 0; 2; 3]) "Q" [::] 4)
  (axr c12n optU1 "U1n[1]" [:: 0; 1; 0; 0]).
Proof. vm_cast_no_check (erefl true). Qed.

(** Axes of the result of [opt_U1n] with two photons. *)
Lemma x_U12 : all (fun c => p12 c ==>
  (omap (fun P : poly => [seq v.1 | v <- drop 2 P.1]) (res c optU1 "U1n[1]") == Some [:: 1; 0]))
  cfgs.
Proof. vm_cast_no_check (erefl true). Qed.

(** One mode, one orbital of each kind, only g.vo: the derivative of T1. *)
Definition onF (n : string) (ix : seq nat) : int :=
  if n == "g.vo" then (-5)%R
  else if (n == "w") || (n == "U1nold[0]") then 1%R else 0%R.
Definition D0 (k : nat) : nat := 1.
Lemma v_fix : runi D0 (wit onF) (Cfg 1 1 false) optU1 "U1n[0]" [:: 0; 0; 0]
              = Some (-1024)%R.
Proof. vm_cast_no_check (erefl (Some ((-1024)%R : int))). Qed.

(** Shapes. *)
Definition all_opt : prog :=
  imds_build ++ opt_T1T2 ++ opt_Sn ++ opt_U1n ++ opt_U2n.
Lemma f_chk : all (fun c => p11 c ==> isSome (chk_prog [::] (live c all_opt))) cfgs.
Proof. vm_cast_no_check (erefl true). Qed.
Lemma f_chk0 : all (fun c => ~~ (p11 c || ((0 < nf1 c) && (1 < nf1 c))) ==>
  ~~ isSome (chk_prog [::] (live c all_opt))) cfgs.
Proof. vm_cast_no_check (erefl true). Qed.
Lemma f_small : [&& small opt_T1T2, small ref_T1, small ref_T2, small sgbw, small energy,
  small optS, small optU1, small optU2, small ref_U1n, small ref_U2n, small ref_single_U1n
  & small all_opt].
Proof. vm_cast_no_check (erefl true). Qed.
