(** Examples for QccProps.v: arrays which meet all hypotheses, and the values
    of the equations there.  Two orbitals of each kind, one mode, nfock1 =
    nfock2 = 2, coupled doubles. *)
From Coq Require Import String Ascii.
From mathcomp Require Import all_ssreflect all_algebra.
From Verif Require Import QccModel QccCode QccSpec QccSym QccNorm QccDer.
From Verif Require Import QccProofs QccFacts QccMain.
Set Implicit Arguments.
Unset Strict Implicit.
Unset Printing Implicit Defensive.
Import GRing.Theory Num.Theory.
Local Open Scope ring_scope.
Local Open Scope string_scope.
Local Open Scope ring_scope.

Definition onW := onG 0 idn e00 e00.
Definition onH (n : string) (ix : seq nat) : int :=
  if String.prefix "g." n then 0 else if n == "G" then 0
  else if n == "T1old" then e00 (nth 0%N ix 0) (nth 0%N ix 1) else 1.
Definition EW : env [fieldType of rat] := ratenv (wit onW).
Definition EH : env [fieldType of rat] := ratenv (wit onH).

Lemma run_int D e c p n ix (z : int) : runi D e c p n ix = Some (z * 2%:Z ^+ kden) ->
  run D c p (ratenv e) n ix = z%:~R.
Proof.
move=> h; rewrite (runiP h) rmorphM rmorphX /= mulfK // expf_neq0 //.
Qed.
Ltac by_run z := apply: (@run_int _ _ _ _ _ _ (z : int));
  vm_cast_no_check (erefl (Some ((z : int) * 2%:Z ^+ kden))).

Example C230_hyps : [/\ (0 < nf1 c22u)%N, (0 < nf2 c22u)%N, arrays_ok EW & G_zero EW].
Proof. by split=> //; exact: wit_ok. Qed.
Example C230_value : run D1 c22u opt_T1T2 EW "T1" [:: 0%N; 0%N] = (-2)%:~R.
Proof. by_run (-2 : int). Qed.
Example C230_value2 : run D1 c22u opt_T1T2 EW "T2" [:: 0; 1; 0; 1]%N = (-11)%:~R.
Proof. by_run (-11 : int). Qed.

Example C231_hyps : arrays_ok EH /\ uncoupled EH.
Proof.
split; first exact: wit_ok; split; first exact: wit_G.
by move=> [|[|?]] [|[|?]].
Qed.
Example C231_value : run D1 c22u sgbw EH "R1" [:: 0%N; 0%N] = (-1)%:~R.
Proof. by_run (-1 : int). Qed.
Example C231_value2 : run D1 c22u sgbw EH "R2" [:: 0; 1; 0; 1]%N = (-5)%:~R.
Proof. by_run (-5 : int). Qed.

Example C232_value : run D1 c22u optU2 EW "U2n[0]" [:: 0; 0; 1; 0; 1]%N = (-21)%:~R.
Proof. by_run (-21 : int). Qed.
Example C232_value2 : run D1 c22u optU2 EW "U22" [:: 0; 1; 0; 1]%N = (-48)%:~R.
Proof. by_run (-48 : int). Qed.
Example C233_value : run D1 c22u optS EW "S1" [:: 0%N] = 8%:~R.
Proof. by_run (8 : int). Qed.
Example C233_value2 : run D1 c22u optS EW "S2" [:: 0; 0]%N = 10%:~R.
Proof. by_run (10 : int). Qed.
Example C234_value : run D1 c22u optU1 EW "U1n[0]" [:: 0; 0; 0]%N = (-9)%:~R.
Proof. by_run (-9 : int). Qed.
Example C236_value : run D1 c22u ref_single_U1n EW "U12" [:: 0; 0]%N = (-25)%:~R.
Proof. by_run (-25 : int). Qed.

(** The derivative is a real condition: x^2 - 3x has the derivative -3 at 0. *)
Example deriv0_example : deriv0 (fun x : rat => x * x - 3%:R * x) (- 3%:R).
Proof.
exists ('X * 'X - 3%:R *: 'X)%R; split=> [x|].
  by rewrite !hornerE.
by rewrite coefB coefZ coefX coefMX coefX /= mulr1 sub0r.
Qed.

(** Lengths which can and cannot be broadcast. *)
Example bcast_ok : isSome (bcast 5 1) /\ isSome (bcast 3 3). Proof. by []. Qed.
Example bcast_no : ~~ isSome (bcast 5 2). Proof. by []. Qed.
