(** Theorems about the compiled kernels: for every number of walkers, size and
    order, and for every interleaving of the iterations of the parallel loop.
    [entry n m s w i j] and [matrix_at] read the row-major arrays. *)
From mathcomp Require Import all_ssreflect all_algebra.
From Verif Require Base LinModel.
From Verif Require Import KernModel KernSpec KernProofs.
Set Implicit Arguments.
Unset Strict Implicit.
Unset Printing Implicit Defensive.
Import GRing.Theory Num.Theory.
Local Open Scope ring_scope.

(** Executions exist. *)
Theorem C187_runs : forall (F : fieldType) (P : Type) nw (prog : nat -> seq (action F P)), exists trace, interleaving nw prog trace.
Proof. exact: seq_trace. Qed.
Print Assumptions C187_runs.

(** C187.  The one-body kernel multiplies every walker by the matrix, whatever
    the new array held before; nothing outside it is written. *)
Theorem C187_onebody : forall (F : fieldType) nw n m (op phi junk : nat -> F) trace,
  interleaving nw (onebody_prog n m op phi) trace ->
  let out := shared (run trace (State (fun=> tt) junk)) in
  (forall w (i : 'I_n) (j : 'I_m), (w < nw)%N ->
    entry n m out w i j = \sum_(l < n) entry2 n op i l * entry n m phi w l j) /\
  (forall y, (nw * (n * m) <= y)%N -> out y = junk y).
Proof. exact: onebody_entries. Qed.
Print Assumptions C187_onebody.

(** The auxiliary-field kernel applies the first terms of the exponential of
    each walker's matrix. *)
Theorem C187_exponential : forall (F : fieldType) nw n m (op : nat -> F) order trace st,
  interleaving nw (hs_prog n m op order) trace ->
  (forall w, (w < nw)%N -> matrix_at n m (shared (run trace st)) w =
    exp_terms (matrix_at n n op w) order (matrix_at n m (shared st) w)) /\
  (forall y, (nw * (n * m) <= y)%N -> shared (run trace st) y = shared st y).
Proof. exact: hs_spec. Qed.
Print Assumptions C187_exponential.

(** One electronic step of a complex array of any layout: the compiled and the
    Python kernels give the same walkers, namely E exp(A_w) E phi_w. *)
Theorem C187_step : forall (F : fieldType) (phi : ndarray F) e op order tr1 tr2 tr3 junk1 junk3,
  complex128 phi ->
  let s1 := shared (run tr1 (State (fun=> tt) junk1)) in
  let s2 := shared (run tr2 (State (fun=> ([::], [::])) s1)) in
  interleaving (d0 phi) (onebody_prog (d1 phi) (d2 phi) e (data phi)) tr1 ->
  interleaving (d0 phi) (hs_prog (d1 phi) (d2 phi) op order) tr2 ->
  interleaving (d0 phi) (onebody_prog (d1 phi) (d2 phi) e s2) tr3 ->
  exists out ref,
    [/\ cpp_step tr1 tr2 tr3 junk1 junk3 phi = Ok out, py_step e op order phi = Ok ref,
        [/\ d0 out = d0 phi, d1 out = d1 phi & d2 out = d2 phi] /\ [/\ d0 ref = d0 phi, d1 ref = d1 phi & d2 ref = d2 phi],
        complex128 out /\ c_order out &
        forall w, (w < d0 phi)%N ->
          matrix_at (d1 phi) (d2 phi) (data out) w = matrix_at (d1 phi) (d2 phi) (data ref) w /\
          matrix_at (d1 phi) (d2 phi) (data out) w =
            matrix_at (d1 phi) (d1 phi) e 0 *m exp_terms (matrix_at (d1 phi) (d1 phi) op w) order
              (matrix_at (d1 phi) (d1 phi) e 0 *m matrix_at (d1 phi) (d2 phi) (data phi) w)].
Proof. exact: step_ok. Qed.
Print Assumptions C187_step.

(** On its own the in-place call does nothing to an array that is not both
    complex and contiguous, although the Python kernel updates it. *)
Theorem C187_kept : forall (F : fieldType) (phi : ndarray F) trace o, complex128 phi && c_order phi = false ->
  cpp_hs trace phi (d0 phi) (d1 phi) o = if (o != d1 phi)%N then Err Base.RuntimeError else Ok phi.
Proof. exact: hs_kept. Qed.
Print Assumptions C187_kept.
Theorem C187_inplace_refuted : exists (phi : ndarray rat_fieldType) op order ref, complex128 phi /\
  (forall trace, cpp_hs trace phi (d0 phi) (d1 phi) (d1 phi) = Ok phi) /\
  py_hs op order phi = Ok ref /\ entry (d1 ref) (d2 ref) (data ref) 0 0 0 <> entry (d1 phi) (d2 phi) (data phi) 0 0 0.
Proof. exact: (lost_ok rat_realFieldType). Qed.
Print Assumptions C187_inplace_refuted.

(** The real kernel divides the k-th power by k only: right up to order 2,
    wrong from order 3 on. *)
Theorem C187_real_partial : forall (F : fieldType) nw n m (op : nat -> F) order trace st,
  interleaving nw (hsr_prog n m op order) trace ->
  forall w, (w < nw)%N ->
  matrix_at n m (shared (run trace st)) w = harmonic_terms (matrix_at n n op w) order (matrix_at n m (shared st) w) /\
  ((order <= 2)%N -> matrix_at n m (shared (run trace st)) w = exp_terms (matrix_at n n op w) order (matrix_at n m (shared st) w)).
Proof. exact: hsr_spec. Qed.
Print Assumptions C187_real_partial.
Theorem C187_real_refuted : exists (op s : mem rat_fieldType) trace, interleaving 1 (hsr_prog 1 1 op 3) trace /\
  matrix_at 1 1 (shared (run trace (State (fun=> ([::], [::])) s))) 0 <> exp_terms (matrix_at 1 1 op 0) 3 (matrix_at 1 1 s 0).
Proof. exact: (real_bad rat_realFieldType). Qed.
Print Assumptions C187_real_refuted.

(** Wrong shapes are reported before anything is written. *)
Theorem C187_shapes : forall (F : fieldType) tr1 tr2 (junk : mem F) r c (phi : ndarray F) o0 o1 o2,
  (cpp_onebody tr1 junk r c phi = Err Base.RuntimeError <-> ~ (r = c /\ d1 phi = r)) /\
  (cpp_hs tr2 phi o0 o1 o2 = Err Base.RuntimeError <-> ~ (o0 = d0 phi /\ o1 = d1 phi /\ o2 = d1 phi)).
Proof. exact: shapes_ok. Qed.
Print Assumptions C187_shapes.

(** Two walkers 1 and 3, matrix (2), the second walker first. *)
Example C187_ex : let prog := onebody_prog 1 1 (fun=> 2%:R) (fun y => if y == 0%N then 1 else 3%:R) in
  let trace := [seq (1%N, a) | a <- prog 1%N] ++ [seq (0%N, a) | a <- prog 0%N] in
  let out : mem rat_fieldType := shared (run trace (State (fun=> tt) (fun=> 7%:R))) in
  interleaving 2 prog trace /\ out 0%N = 2%:R /\ out 1%N = 6%:R /\ out 2%N = 7%:R.
Proof. exact: ex_onebody. Qed.

(** C188.  Overlap matrices. *)
Theorem C188_overlap : forall (F : fieldType) (conj : {rmorphism F -> F}) nw n no (phiw psi junk : nat -> F) trace,
  interleaving nw (ovlp_prog conj n no phiw psi) trace ->
  cpp_ovlp trace junk n no n no = Ok (shared (run trace (State (fun=> tt) junk))) /\
  forall w (i j : 'I_no), (w < nw)%N ->
    entry no no (shared (run trace (State (fun=> tt) junk))) w i j = \sum_(l < n) entry n no phiw w l i * conj (entry2 no psi l j).
Proof. exact: ovlp_entries. Qed.
Print Assumptions C188_overlap.
Theorem C188_shapes : forall (F : fieldType) trace (junk : mem F) n no p0 p1,
  cpp_ovlp trace junk n no p0 p1 = Err Base.RuntimeError <-> ~ (p0 = n /\ p1 = no).
Proof. exact: ovlp_shapes. Qed.
Print Assumptions C188_shapes.

(** Overlaps and half-rotated Green's functions in one parallel loop; the
    inverse is asked to be right on invertible matrices only.  The result is
    the Python one, is dual to the trial state, and spans the walker. *)
Theorem C188_greens : forall (F : fieldType) (conj : {rmorphism F -> F}) nw inv gb p i (phiw psi : nat -> F) trace st,
  (forall v, size v = (i * i)%N -> matrix_at i i (of_vec v) 0 \in unitmx ->
     matrix_at i i (of_vec (inv v)) 0 = invmx (matrix_at i i (of_vec v) 0)) ->
  (nw * (i * i) <= gb)%N -> interleaving nw (gf_prog conj inv gb p i phiw psi) trace ->
  let out := shared (run trace st) in
  forall w, (w < nw)%N ->
  (forall a b : 'I_i, entry i i out w a b = \sum_(l < p) entry p i phiw w l a * conj (entry2 i psi l b)) /\
  (matrix_at i i out w \in unitmx ->
     let G q a := entry p i (fun y => out (gb + y)%N) w q a in
     matrix_at p i (fun y => out (gb + y)%N) w = LinModel.ghalf conj (matrix_at p i phiw w) (matrix_at p i psi 0) /\
     (forall a b : 'I_i, \sum_(q < p) conj (entry2 i psi q a) * G q b = (a == b)%:R) /\
     (forall (q : 'I_p) (a : 'I_i), \sum_(b < i) G q b * entry i i out w a b = entry p i phiw w q a)).
Proof. exact: gf_entries. Qed.
Print Assumptions C188_greens.
(** Such an inverse exists. *)
Theorem C188_inverse : forall (F : fieldType) i, exists inv : seq F -> seq F,
  forall v, size v = (i * i)%N -> matrix_at i i (of_vec v) 0 \in unitmx ->
     matrix_at i i (of_vec (inv v)) 0 = invmx (matrix_at i i (of_vec v) 0).
Proof. exact: inv_exists. Qed.
Print Assumptions C188_inverse.
Example C188_ex : exists trace, let prog := gf_prog (fun x => x) (fun v : seq rat => [seq x^-1 | x <- v]) 1 1 1 (fun=> 2%:R) (fun=> 3%:R) in
  interleaving 1 prog trace /\
  let out : mem rat_fieldType := shared (run trace (State (fun=> [::]) (fun=> 0))) in out 0%N = 6%:R /\ out 1%N = 3%:R^-1.
Proof. exact: ex_greens. Qed.

(** C189.  Exchange and Coulomb energies of the walkers. *)
Theorem C189_exchange : forall (F : fieldType) nw nchol nao no (rl G junk : nat -> F) trace,
  interleaving nw (walker_prog (exx_val nchol nao no rl G)) trace ->
  forall w, (w < nw)%N ->
  let LG l a b := \sum_(q < nao) entry nao no rl l q a * entry nao no G w q b in
  shared (run trace (State (fun=> tt) junk)) w = 2%:R^-1 * (\sum_(l < nchol) \sum_(a < no) \sum_(b < no) LG l a b * LG l b a) /\
  shared (run trace (State (fun=> tt) junk)) w =
    LinModel.exx (fun l : 'I_nchol => matrix_at nao no rl l) (matrix_at nao no G w).
Proof. exact: exx_spec. Qed.
Print Assumptions C189_exchange.
Theorem C189_coulomb : forall (F : fieldType) nw nchol nao no (rl G junk : nat -> F) trace,
  interleaving nw (walker_prog (ecoul_val nchol nao no rl G)) trace ->
  forall w, (w < nw)%N ->
  let X l := \sum_(q < nao) \sum_(a < no) entry nao no G w q a * entry nao no rl l q a in
  shared (run trace (State (fun=> tt) junk)) w = 2%:R^-1 * (\sum_(l < nchol) X l * X l) /\
  shared (run trace (State (fun=> tt) junk)) w =
    LinModel.ecoul1 (fun l : 'I_nchol => matrix_at nao no rl l) (matrix_at nao no G w).
Proof. exact: ecoul_spec. Qed.
Print Assumptions C189_coulomb.
(** With two spins the kernel is right when there are as many beta as alpha
    electrons. *)
Theorem C189_uhf_partial : forall (F : fieldType) nw nchol nao no (rla Ga rlb Gb junk : nat -> F) trace,
  interleaving nw (walker_prog (ecoul_uhf_val nchol nao no no rla Ga rlb Gb)) trace ->
  forall w, (w < nw)%N ->
  let X (r g : nat -> F) l := \sum_(q < nao) \sum_(a < no) entry nao no g w q a * entry nao no r l q a in
  shared (run trace (State (fun=> tt) junk)) w = 2%:R^-1 * (\sum_(l < nchol) (X rla Ga l + X rlb Gb l) * (X rla Ga l + X rlb Gb l)) /\
  shared (run trace (State (fun=> tt) junk)) w =
    LinModel.ecoul2 (fun l : 'I_nchol => matrix_at nao no rla l) (matrix_at nao no Ga w)
                    (fun l : 'I_nchol => matrix_at nao no rlb l) (matrix_at nao no Gb w).
Proof. exact: ecoul_uhf_spec. Qed.
Print Assumptions C189_uhf_partial.
(** With two alpha and one beta electron the first walker's energy uses the
    second walker's beta Green's function, whatever lies behind the array; with
    more beta than alpha electrons entries are left out. *)
Theorem C189_uhf_refuted : exists (rla Ga Gb : mem rat_fieldType), forall x, let rlb : mem rat_fieldType := fun y => if y == 0%N then 0 else if y == 1%N then 1 else x in
  ecoul_uhf_val 2 1 2 1 rla Ga rlb Gb 0 <>
  LinModel.ecoul2 (fun l : 'I_2 => matrix_at 1 2 rla l) (matrix_at 1 2 Ga 0) (fun l : 'I_2 => matrix_at 1 1 rlb l) (matrix_at 1 1 Gb 0).
Proof. exact: (uhf_bad rat_realFieldType). Qed.
Print Assumptions C189_uhf_refuted.
Theorem C189_uhf_beta_refuted : exists (rla Ga rlb Gb : mem rat_fieldType),
  ecoul_uhf_val 1 1 1 2 rla Ga rlb Gb 0 = 0 /\
  LinModel.ecoul2 (fun l : 'I_1 => matrix_at 1 1 rla l) (matrix_at 1 1 Ga 0) (fun l : 'I_1 => matrix_at 1 2 rlb l) (matrix_at 1 2 Gb 0) = 2%:R^-1.
Proof. exact: (uhf_bad2 rat_realFieldType). Qed.
Print Assumptions C189_uhf_beta_refuted.
Example C189_ex : exx_val 1 1 1 (fun=> 2%:R : rat_fieldType) (fun=> 3%:R) 0 = 18%:R /\ ecoul_val 1 1 1 (fun=> 2%:R : rat_fieldType) (fun=> 3%:R) 0 = 18%:R.
Proof. exact: ex_energies. Qed.

(** C190.  The compiled contraction of (z, n) with (n, p, q). *)
Theorem C190_contraction : forall (F : fieldType) nw n p q (A B junk : nat -> F) trace,
  interleaving nw (tensordot_prog n p q A B) trace ->
  forall w (i : 'I_p) (j : 'I_q), (w < nw)%N ->
  entry p q (shared (run trace (State (fun=> tt) junk))) w i j = \sum_(l < n) entry2 n A w l * entry p q B l i j.
Proof. exact: tensordot_entries. Qed.
Print Assumptions C190_contraction.
Example C190_ex : exists trace, interleaving 1 (tensordot_prog 2 1 1 (fun=> 2%:R) (fun y => y%:R)) trace /\
  (shared (run trace (State (fun=> tt) (fun=> 7%:R))) : mem rat_fieldType) 0%N = 2%:R.
Proof. exact: ex_tensordot. Qed.
