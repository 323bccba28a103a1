(** Model of openms/gwf/ga_sband.py: the single-band Gutzwiller approximation
    (class GASCF and the functions kernel, eig and get_occ).  Real arithmetic
    over a real closed field; a square root of a negative number is [None]
    (numpy's NaN).  [scipy.linalg.eigh] is an argument.  [eps] is EPS (line 133).
    The amplitudes of a site are (f[0], f[1], f[2]) for the empty, the singly
    (per spin) and the doubly occupied configuration. *)
From mathcomp Require Import all_ssreflect all_algebra.
From Verif Require Base.
Set Implicit Arguments.
Unset Strict Implicit.
Unset Printing Implicit Defensive.
Import Order.TTheory GRing.Theory Num.Theory.
Local Open Scope ring_scope.

Section Gwf.
Variables (F : rcfType) (eps : F).

(** numpy.sqrt *)
Definition np_sqrt (x : F) : option F := if x < 0 then None else Some (Num.sqrt x).

Definition amps : Type := (F * F * F)%type.

(** 481-488 ([init_var_params]), one site with n0 = dm[i, i] *)
Definition init_site (n0 : F) : option amps :=
  omap (fun s => (1 - n0, s, n0)) (np_sqrt (n0 * (1 - n0))).

(** 522-526 ([update_renormalizations]), one site *)
Definition renorm_raw (f : amps) (n0 : F) : F :=
  let '(f0, f1, f2) := f in (f2 * f1 + f1 * f0) / Num.sqrt (`|n0 * (1 - n0)| + eps).
Definition renorm (f : amps) (n0 : F) : F :=
  let r := renorm_raw f n0 in if 1 < r then 1 else r.

(** 587 and 612 *)
Definition occupation (f : amps) : F := let '(f0, f1, f2) := f in f1 * f1 + f2 * f2.

(** 434-437: the matrices of the embedding Hamiltonian *)
Definition Mpp : 'M[F]_3 := \matrix_(i, j)
  if ((i : nat) == j.+1) || ((j : nat) == i.+1) then Num.sqrt 2%:R else 0.
Definition Npp : 'M[F]_3 := \matrix_(i, j)
  if i == j then (if (i : nat) == 1%N then 2%:R^-1 else if (i : nat) == 2%N then 1 else 0) else 0.
Definition Upp : 'M[F]_3 := \matrix_(i, j)
  if (i == j) && ((i : nat) == 2%N) then 1 else 0.

(** 586-590: embedding Hamiltonian of a site.  For n0 = 0 or 1 the quotient is
    infinite or NaN. *)
Definition emb_ham (delta n0 u r lam : F) (f : amps) : option 'M[F]_3 :=
  let nf := occupation f in
  let lmd := - 4%:R * `|r * delta| * (nf - 2%:R^-1) / (`|nf * (1 - nf)| + eps) in
  let s := Num.sqrt `|n0 * (1 - n0)| in
  if s == 0 then None
  else Some ((delta / s + eps) *: Mpp + (u *: Upp + (lmd - 2%:R * lam) *: Npp)).

(** 592-599: [c[0]] of the matrix of eigenvectors *)
Definition new_site (c : 'M[F]_3) : amps :=
  (c ord0 ord0, c ord0 (Ordinal (isT : (1 < 3)%N)) / Num.sqrt 2%:R, c ord0 ord_max).
(** 602-603 *)
Definition mix_site (mix : F) (f g : amps) : amps :=
  let '(f0, f1, f2) := f in let '(g0, g1, g2) := g in
  let m x y := Num.sqrt (mix * (x * x) + (1 - mix) * (y * y)) in
  (m f0 g0, m f1 g1, m f2 g2).

Variable n : nat.
Implicit Types (h dm : 'M[F]_n) (R lam : 'I_n -> F).

(** 530-541 ([get_deltas]) *)
Definition deltas h dm R (i : 'I_n) : F := (\sum_j h i j * dm j i) * R i.

(** 629-650 ([update_qp_ham]) *)
Definition qp_ham h R lam : 'M[F]_n :=
  \matrix_(i, j) ((if i == j then lam i else 0) + (R i * R j) * h i j).

(** 606-617 ([update_lambda]) *)
Definition new_lambda dm (f : 'I_n -> amps) R lam (i : 'I_n) : F :=
  lam i + (dm i i - occupation (f i)) * R i.
Definition lambda_err dm (f : 'I_n -> amps) : F :=
  (\sum_i `|dm i i - occupation (f i)|) / n%:R.

(** 146-170 ([get_occ]): [idx] is numpy.argsort of the energies *)
Definition get_occ (nelectron : nat) (idx : 'I_n -> 'I_n) (i : 'I_n) : F :=
  if [exists k : 'I_n, (k < nelectron %/ 2)%N && (idx k == i)] then 2%:R else 0.
(** 620-623 ([make_rdm1]) *)
Definition make_rdm1 (C : 'M[F]_n) (occ : 'I_n -> F) : 'M[F]_n :=
  \matrix_(i, j) \sum_(k | 0 < occ k) (C i k * occ k) * C j k.
(** 136-144 ([eig]): [c] from eigh, [idx] is argmax of |c| along the columns *)
Definition fix_signs (C : 'M[F]_n) (idx : 'I_n -> 'I_n) : 'M[F]_n :=
  \matrix_(i, j) (if C (idx j) j < 0 then - C i j else C i j).

(** 560-603 ([update_var_params]), mix = 0.7; a site with an infinite or NaN
    matrix makes eigh raise *)
Definition update_var (eigh : 'M[F]_3 -> 'M[F]_3) (u : 'I_n -> F) dm (dl R lam : 'I_n -> F)
    (f : 'I_n -> amps) : Base.res ('I_n -> amps) :=
  let H i := emb_ham (dl i) (dm i i) (u i) (R i) (lam i) (f i) in
  if [forall i, H i != None]
  then Base.Ok (fun i => mix_site (7%:R / 10%:R) (f i) (new_site (eigh (odflt 0 (H i)))))
  else Base.Err Base.ValueError.

(** The quantities carried through the loop (250-286) *)
Record gstate : Type := GState {
  s_f : 'I_n -> amps; s_R : 'I_n -> F; s_lam : 'I_n -> F; s_dm : 'M[F]_n }.

(** 279 [numpy.linalg.norm(delta_f)] *)
Definition gnorm (f g : 'I_n -> amps) : F :=
  let sq x := x * x in
  Num.sqrt (\sum_i (sq ((f i).1.1 - (g i).1.1) + sq ((f i).1.2 - (g i).1.2) + sq ((f i).2 - (g i).2))).

(** One cycle (255-282); [solve] stands for eig, get_occ and make_rdm1 of the
    quasiparticle Hamiltonian.  The boolean is the test of line 281. *)
Definition cycle (solve : 'M[F]_n -> 'M[F]_n) (eigh : 'M[F]_3 -> 'M[F]_3) h u (tol tolg : F)
    (st : gstate) : Base.res (gstate * bool) :=
  let R := fun i => renorm (s_f st i) (s_dm st i i) in
  let dm := solve (qp_ham h R (s_lam st)) in
  let dl := deltas h dm R in
  Base.rbind (update_var eigh u dm dl R (s_lam st) (s_f st)) (fun f =>
    let lam := new_lambda dm f R (s_lam st) in
    Base.Ok (GState f R lam dm, (gnorm (s_f st) f < tol) || (lambda_err dm f < tolg))).

(** 250-286: the loop; [conv] is never reset and there is no break *)
Fixpoint ga_loop (S : Type) (step : S -> Base.res (S * bool)) (k : nat) (conv : bool) (st : S) : Base.res (bool * S) :=
  match k with
  | 0 => Base.Ok (conv, st)
  | k'.+1 => Base.rbind (step st) (fun r => ga_loop step k' (conv || r.2) r.1)
  end.

(** 180-294 ([kernel]): convergence, energy, state.  [cycle + 1] after the loop
    (289) needs at least one cycle.  [R0], [lam0], [dm0]: keyword arguments. *)
Definition kernel solve eigh h u (tol tolg : F) (max_cycle : nat)
    (R0 lam0 : option ('I_n -> F)) (dm0 : option 'M[F]_n) : Base.res (bool * F * gstate) :=
  let R := odflt (fun=> 1) R0 in
  let lam := odflt (fun=> 0) lam0 in
  let dm := odflt (solve (qp_ham h R lam)) dm0 in
  if max_cycle is 0 then Base.Err Base.UnboundLocalError
  else if [forall i, init_site (dm i i) != None] then
    let f i := odflt (0, 0, 0) (init_site (dm i i)) in
    Base.rmap (fun r => (r.1, 0, r.2))
      (ga_loop (cycle solve eigh h u tol tolg) max_cycle false (GState f R lam dm))
  else Base.Err Base.ValueError.
End Gwf.

(** 817-823 ([_hubbard_hamilts_pbc]), the one-body part: assignments in order of i *)
Definition hubbard_ring (F : ringType) (L : nat) (i j : nat) : F :=
  if has (fun k => ((i == k) && (j == k.+1 %% L)%N) || ((i == k.+1 %% L)%N && (j == k))) (iota 0 L)
  then -1 else 0.
