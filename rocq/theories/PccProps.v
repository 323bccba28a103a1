(** Integrals for correlated methods: theorems C248 to C254. *)
From mathcomp Require Import all_ssreflect all_algebra.
From Verif Require Base.
From Verif Require Import PccModel PccSpec PccProofs.
Set Implicit Arguments.
Unset Strict Implicit.
Unset Printing Implicit Defensive.
Import GRing.Theory.
Local Open Scope ring_scope.

(** C248: [get_I] returns the antisymmetrised integrals of spin orbitals, of
    the molecule's repulsion together with that of the dipole self-energy *)
Theorem C248_integrals (F : fieldType) n (ca cb : arr F) (v : arr4 F) m (g : nat -> arr F) p q r s :
  get_I n ca cb v m g p q r s = anti n ca cb (with_dse v m g) p q r s.
Proof. exact: get_I_anti. Qed.
Print Assumptions C248_integrals.

Theorem C248_symmetry (F : fieldType) n (ca cb : arr F) (v : arr4 F) m (g : nat -> arr F) p q r s :
  eri_sym v -> (forall x, sym2 (g x)) ->
  [/\ get_I n ca cb v m g q p r s = - get_I n ca cb v m g p q r s,
      get_I n ca cb v m g p q s r = - get_I n ca cb v m g p q r s &
      get_I n ca cb v m g r s p q = get_I n ca cb v m g p q r s].
Proof.
move=> hv hg; have h := dse_sym m hv hg.
by split; rewrite !get_I_anti; [exact: anti_left | exact: anti_right | exact: anti_herm].
Qed.
Print Assumptions C248_symmetry.

(** the blocks are cut along two lists that together hold every spin orbital
    once, and the columns of [Co] and [Cv] are the orbitals of these lists *)
Theorem C248_blocks (F : fieldType) n (ca cb : arr F) na nb :
  (na <= n)%N -> (nb <= n)%N ->
  [/\ perm_eq (oidx n na nb ++ vidx n na nb) (iota 0 (n + n)),
      size (oidx n na nb) = (na + nb)%N,
      (forall p i, (i < na + nb)%N ->
         Co n ca cb na p i = block_diag n n ca cb p (nth 0%N (oidx n na nb) i)) &
      (forall p i, (i < (n - na) + (n - nb))%N ->
         Cv n ca cb na nb p i = block_diag n n ca cb p (nth 0%N (vidx n na nb) i))].
Proof.
move=> ha hb; split.
- exact: idx_all.
- by rewrite /oidx size_cat !size_iota.
- by move=> p i hi; rewrite (Co_col _ _ _ ha hi).
- by move=> p i hi; rewrite (Cv_col _ _ _ ha hi).
Qed.
Print Assumptions C248_blocks.

Example C248_example :
  let one : arr rat_fieldType := fun _ _ => 1 in
  get_I 1 one one (fun _ _ _ _ => 1) 1 (fun _ => one) 0%N 1%N 0%N 1%N = 2%:R
  /\ get_I 1 one one (fun _ _ _ _ => 1) 1 (fun _ => one) 0%N 1%N 1%N 0%N = - 2%:R
  /\ oidx 3 2 1 = [:: 0; 1; 3]%N /\ vidx 3 2 1 = [:: 2; 4; 5]%N.
Proof.
by rewrite /get_I /spin_eri /mo_eri /dse_eri /hcols /= !big_ord1 /=.
Qed.

(** C249: electrons of the reference *)
Theorem C249_unrestricted_partial (F : fieldType) n (ca cb S : arr F) occa occb :
  let na := (mos_unrestricted occa occb).1 in let nb := (mos_unrestricted occa occb).2 in
  (na <= n)%N -> (nb <= n)%N -> orthonormal n S ca -> orthonormal n S cb ->
  trace2 (n + n) (ptot n ca cb na nb) (block_diag n n S S) = (sumn occa + sumn occb)%:R.
Proof. by move=> na nb ha hb oa ob; rewrite (trace_electrons ha hb oa ob). Qed.
Print Assumptions C249_unrestricted_partial.

Theorem C249_restricted_partial (F : fieldType) n (c S : arr F) occ :
  let na := (mos_restricted occ).1 in let nb := (mos_restricted occ).2 in
  ~~ odd (sumn occ) -> (na <= n)%N -> orthonormal n S c ->
  trace2 (n + n) (ptot n c c na nb) (block_diag n n S S) = (sumn occ)%:R.
Proof.
move=> na nb ho ha oc; rewrite (trace_electrons ha ha oc oc) /na /nb /= divn2 addnn.
by rewrite -[in RHS](odd_double_half (sumn occ)) (negbTE ho).
Qed.
Print Assumptions C249_restricted_partial.

(** an odd number of electrons loses one, whatever the orbitals *)
Theorem C249_odd_refuted :
  exists occ : seq nat, forall (F : numFieldType) n (c S : arr F),
  let na := (mos_restricted occ).1 in let nb := (mos_restricted occ).2 in
  (na <= n)%N -> orthonormal n S c ->
  trace2 (n + n) (ptot n c c na nb) (block_diag n n S S) + 1 = (sumn occ)%:R.
Proof.
exists [:: 2; 1; 0]%N => F n c S na nb ha oc; rewrite (trace_electrons ha ha oc oc).
by rewrite -[1]/(1%:R) -natrD.
Qed.
Print Assumptions C249_odd_refuted.

(** occupied orbitals are the first ones, whichever are marked occupied *)
Theorem C249_order_refuted :
  exists (occ : seq nat) (c : arr rat_fieldType),
  let na := (mos_restricted occ).1 in let nb := (mos_restricted occ).2 in
  pa c na 0%N 0%N + pb c nb 0%N 0%N <> \sum_(i < size occ) (nth 0%N occ i)%:R * (c 0%N i * c 0%N i).
Proof.
exists [:: 0; 2]%N, (fun p i => (p == i)%:R) => /=.
by rewrite /pa /pb /dens !big_ord1 !big_ord_recl big_ord0.
Qed.
Print Assumptions C249_order_refuted.

Example C249_example :
  mos_restricted [:: 2; 2; 0]%N = (2, 2)%N /\ mos_restricted [:: 2; 1; 0]%N = (1, 1)%N
  /\ mos_unrestricted [:: 1; 1; 0]%N [:: 1; 0; 0]%N = (2, 1)%N
  /\ orthonormal 3 (fun p q => (p == q)%:R : rat) (fun p q => (p == q)%:R).
Proof.
split=> //; split=> //; split=> // -[|[|[|i]]] [|[|[|j]]] //= _ _;
  by rewrite !big_ord_recl !big_ord0.
Qed.

(** C250: every block of the Fock matrix is the one-electron part plus the
    mean field of the occupied orbitals with the integrals of [get_I]; [I] and
    [J] choose occupied or virtual orbitals *)
Theorem C250_fock_partial (F : fieldType) n (ca cb : arr F) na nb (v : arr4 F) m (g : nat -> arr F)
    (f w : nat -> F) shift (h oei : arr F) (occI occJ : bool) i j :
  let cols (o : bool) := if o then Co n ca cb na else Cv n ca cb na nb in
  let idx (o : bool) := if o then oidx n na nb else vidx n na nb in
  (na <= n)%N -> (forall x, sym2 (g x)) ->
  (i < size (idx occI))%N -> (j < size (idx occJ))%N ->
  let a := nth 0%N (idx occI) i in let b := nth 0%N (idx occJ) j in
  g_fock n ca cb na nb v m g f w true shift h oei (cols occI) (cols occJ) i j
  = one_so n ca cb (fun p q => if shift
       then h p q - 2%:R * \sum_(x < m) xi n ca cb na nb g f w x * (g x p q * f x)
       else h p q + oei p q) a b
    + \sum_(k <- oidx n na nb) get_I n ca cb v m g a k b k.
Proof.
move=> cols idx hn hg hi hj a b.
have col o k : (k < size (idx o))%N -> forall p, (p < n + n)%N ->
    cols o p k = ctot n ca cb p (nth 0%N (idx o) k).
  case: o; rewrite /idx /cols /oidx /vidx size_cat !size_iota => hk p _.
    exact: Co_col. exact: Cv_col.
rewrite (g_fock_so _ _ _ hn hg _ _ _ _ _ (col _ _ hi) (col _ _ hj)); congr (_ + _).
by apply: eq_bigr => k _; rewrite get_I_anti.
Qed.
Print Assumptions C250_fock_partial.

(** without the dipole self-energy in the reference, [get_I] still has it *)
Theorem C250_no_dse_refuted :
  exists (v : arr4 rat_fieldType) (g : nat -> arr rat_fieldType) (c h : arr rat_fieldType),
  (forall x, sym2 (g x)) /\
  g_fock 1 c c 1 1 v 1 g (fun _ => 1) (fun _ => 1) false false h (fun _ _ => 0)
    (Co 1 c c 1) (Co 1 c c 1) 0%N 0%N
  <> one_so 1 c c h 0 0 + \sum_(k <- oidx 1 1 1) get_I 1 c c v 1 g 0%N k 0%N k.
Proof.
exists (fun _ _ _ _ => 0), (fun _ _ _ => 1), (fun _ _ => 1), (fun _ _ => 0); split=> //.
rewrite /g_fock /rot2 /fock /get_j /get_k /h_used /block_diag /Co /one_so.
rewrite /get_I /spin_eri /mo_eri /dse_eri /hcols !big_cons big_nil /=.
rewrite !(big_bool, big_ord_recl, big_ord0) /block_diag /so /=.
by rewrite !(mul0r, mulr0, add0r, addr0, subr0, oppr0, mul1r, mulr1, subrr).
Qed.
Print Assumptions C250_no_dse_refuted.

Example C250_example :
  let one : arr rat_fieldType := fun _ _ => 1 in
  one_so 1 one one one 0 0
  + \sum_(k <- oidx 1 1 1) get_I 1 one one (fun _ _ _ _ => 1) 1 (fun _ => one) 0%N k 0%N k = 3%:R.
Proof.
rewrite /= /get_I /spin_eri /mo_eri /dse_eri /hcols /one_so !big_cons big_nil /=.
rewrite !(big_bool, big_ord_recl, big_ord0) /so /=.
by rewrite !(mul0r, mulr0, add0r, addr0, subr0, oppr0, mul1r, mulr1, subrr).
Qed.

(** C251: the displaced photon modes describe the same Hamiltonian: coupling to
    deviations from the mean, minus twice the displacement times the coupling
    in the one-electron part, and a number *)
Theorem C251_shift (F : fieldType) n (ca cb : arr F) na nb m (g : nat -> arr F) (f w : nat -> F)
    (A : algType F) (G b bd : nat -> A) :
  let z := xi n ca cb na nb g f w in
  polaritons m w G b bd
  = polaritons m w (fun x => G x - (w x * z x)%:A) (fun x => b x + (z x)%:A) (fun x => bd x + (z x)%:A)
    - 2%:R *: (\sum_(x < m) z x *: G x) + (\sum_(x < m) w x * z x ^+ 2)%:A.
Proof. exact: shift_exact. Qed.
Print Assumptions C251_shift.

(** the mean subtracted is the mean field of the occupied orbitals, and the
    constant of the code is what the shift adds to the energy of the reference *)
Theorem C251_mean_field (F : fieldType) n (ca cb : arr F) na nb m (g : nat -> arr F) (f w : nat -> F) :
  (na <= n)%N -> (forall x, w x != 0) ->
  let z := xi n ca cb na nb g f w in
  let mean x := \sum_(i <- oidx n na nb) one_so n ca cb (fun p q => g x p q * f x) i i in
  [/\ forall x, w x * z x = mean x,
      forall x, mfG n ca cb na nb g f false x = mean x,
      forall x, mfG n ca cb na nb g f true x = mean x - w x * z x &
      shift_const n ca cb na nb m g f w
      = (\sum_(x < m) w x * z x ^+ 2) - 2%:R * \sum_(x < m) z x * mean x].
Proof.
move=> hn hw z mean.
have e x : w x * z x = mean x by exact: xi_occ.
split=> // [x|x|]; first exact: mfG_occ; first by rewrite e subrr.
rewrite /shift_const -/z mulr_sumr -sumrB -sumrN; apply: eq_bigr => x _; rewrite -e.
by rewrite [z x * _]mulrCA -expr2 mulr_natl mulr2n opprD addrA subrr add0r.
Qed.
Print Assumptions C251_mean_field.

(** [gint]: blocks of the coupling over occupied and virtual orbitals *)
Theorem C251_coupling (F : fieldType) n (ca cb : arr F) na nb (g : nat -> arr F) (f : nat -> F)
    (occI occJ : bool) x i j :
  let cols (o : bool) := if o then Co n ca cb na else Cv n ca cb na nb in
  let idx (o : bool) := if o then oidx n na nb else vidx n na nb in
  (na <= n)%N -> (i < size (idx occI))%N -> (j < size (idx occJ))%N ->
  gint n g f (cols occI) (cols occJ) x i j
  = one_so n ca cb (fun p q => g x p q * f x) (nth 0%N (idx occI) i) (nth 0%N (idx occJ) j).
Proof.
move=> cols idx hn hi hj.
have col o k : (k < size (idx o))%N -> forall p, (p < n + n)%N ->
    cols o p k = ctot n ca cb p (nth 0%N (idx o) k).
  case: o; rewrite /idx /cols /oidx /vidx size_cat !size_iota => hk p _.
    exact: Co_col. exact: Cv_col.
by rewrite /gint (rot_ext _ (col _ _ hi) (col _ _ hj)) gso_rot.
Qed.
Print Assumptions C251_coupling.

Example C251_example :
  let one : arr rat_fieldType := fun _ _ => 1 in
  xi 1 one one 1 1 (fun _ => one) (fun _ => 1) (fun _ => 2%:R) 0 = 1
  /\ shift_const 1 one one 1 1 1 (fun _ => one) (fun _ => 1) (fun _ => 2%:R) = - 2%:R.
Proof.
rewrite /shift_const /xi /gmatso /ptot /pa /pb /dens /block_diag /=.
by rewrite !(big_ord_recl, big_ord0).
Qed.

(** C252: the energy of the reference determinant *)
Theorem C252_energy_partial (F : numFieldType) n (ca cb : arr F) na nb (v : arr4 F) m (g : nat -> arr F)
    shift kept (h oei : arr F) enuc const :
  (na <= n)%N -> (forall x, sym2 (g x)) -> kept || shift ->
  hf_energy n ca cb na nb v m g true shift kept h oei enuc const
  = det_energy n ca cb (oidx n na nb) (fun p q => if shift then h p q else h p q + oei p q)
      (with_dse v m g)
    + enuc + (if shift then const else 0).
Proof. by move=> hn hg hk; rewrite energy_right // Num.Theory.pnatr_eq0. Qed.
Print Assumptions C252_energy_partial.

(** a reference that makes its core Hamiltonian anew: half of the one-electron
    part of the dipole self-energy is lost *)
Theorem C252_half_refuted :
  exists (c h oei : arr rat_fieldType) (v : arr4 rat_fieldType) (g : nat -> arr rat_fieldType),
  (forall x, sym2 (g x)) /\
  hf_energy 1 c c 1 1 v 1 g true false false h oei 0 0
  <> det_energy 1 c c (oidx 1 1 1) (fun p q => h p q + oei p q) (with_dse v 1 g).
Proof.
exists (fun _ _ => 1), (fun _ _ => 0), (fun _ _ => 1), (fun _ _ _ _ => 0), (fun _ _ _ => 1).
split=> //; rewrite energy_half // addr0.
set e := det_energy _ _ _ _ _ _.
move=> /eqP; rewrite -subr_eq0 addrAC subrr add0r oppr_eq0.
rewrite /oidx !big_cons big_nil /one_so !(big_bool, big_ord_recl, big_ord0) /so /=.
by rewrite ?(mul0r, mulr0, add0r, addr0, subr0, oppr0, mul1r, mulr1, subrr).
Qed.
Print Assumptions C252_half_refuted.

(** a reference that keeps it: every call adds the one-electron part once more *)
Theorem C252_calls_partial (F : numFieldType) n (ca cb : arr F) na nb (v : arr4 F) m (g : nat -> arr F)
    (h oei : arr F) enuc const k :
  (na <= n)%N -> (forall x, sym2 (g x)) ->
  hf_energy n ca cb na nb v m g true false true (h_calls true false h oei k) oei enuc const
  = det_energy n ca cb (oidx n na nb) (fun p q => h p q + oei p q) (with_dse v m g) + enuc
    + k%:R * \sum_(i <- oidx n na nb) one_so n ca cb oei i i.
Proof.
move=> hn hg; rewrite energy_right // ?Num.Theory.pnatr_eq0 // addr0.
rewrite [RHS]addrAC; congr (_ + _); rewrite /det_energy addrAC; congr (_ + _).
rewrite mulr_sumr -big_split; apply: eq_bigr => i _ /=.
rewrite -one_scale -one_add; apply: one_ext => p q.
by rewrite /h_used h_calls_kept addrAC.
Qed.
Print Assumptions C252_calls_partial.
Theorem C252_again_refuted :
  exists (c h oei : arr rat_fieldType) (v : arr4 rat_fieldType) (g : nat -> arr rat_fieldType),
  let call k := hf_energy 1 c c 1 1 v 1 g true false true (h_calls true false h oei k) oei 0 0 in
  call 1%N <> call 0%N.
Proof.
exists (fun _ _ => 1), (fun _ _ => 0), (fun _ _ => 1), (fun _ _ _ _ => 0), (fun _ _ _ => 1) => call.
rewrite /call !C252_calls_partial // mul0r !addr0 => /eqP.
rewrite -subr_eq0 addrAC subrr add0r mul1r.
rewrite /oidx !big_cons big_nil /one_so !(big_bool, big_ord_recl, big_ord0) /so /=.
by rewrite ?(mul0r, mulr0, add0r, addr0, subr0, oppr0, mul1r, mulr1, subrr).
Qed.
Print Assumptions C252_again_refuted.

Example C252_example :
  let one : arr rat_fieldType := fun _ _ => 1 in
  det_energy 1 one one (oidx 1 1 1) one (with_dse (fun _ _ _ _ => 1) 1 (fun _ => one)) = 4%:R.
Proof.
rewrite /det_energy /anti /coul /so /with_dse /one_so /= !big_cons !big_nil /=.
by rewrite !(big_bool, big_ord_recl, big_ord0).
Qed.

(** C253: integrals for configuration interaction *)
Theorem C253_self_energy_partial (F : fieldType) n m (A : algType F) (hat : {linear 'M[F]_n -> A})
    (C h : 'M[F]_n) (g : 'I_m -> 'M[F]_n) :
  normal_ordered hat (fci_hcore C h g) (fun x => ao2mo C (g x))
  = with_squares hat (ao2mo C h) (fun x => ao2mo C (g x)).
Proof. exact: fci_squares. Qed.
Print Assumptions C253_self_energy_partial.

Theorem C253_one_mode_partial (F : fieldType) n (g : nat -> arr F) (f : nat -> F) :
  exists2 gb, gmat_bilinear n 1 g f = Base.Ok gb &
  forall x p q, (x < 1)%N -> gb x p q = g x p q * f x.
Proof. by eexists; first by []; case. Qed.
Print Assumptions C253_one_mode_partial.

(** two modes: an exception, or frequencies on orbitals instead of modes *)
Theorem C253_modes_refuted :
  exists (g : nat -> arr rat_fieldType) (f : nat -> rat),
  gmat_bilinear 3 2 g f = Base.Err Base.ValueError /\
  exists2 gb, gmat_bilinear 2 2 g f = Base.Ok gb &
    gb 0%N 0%N 1%N <> g 0%N 0%N 1%N * f 0%N /\ gb 0%N 0%N 1%N <> gb 0%N 1%N 0%N.
Proof.
exists (fun _ _ _ => 1), (fun x => x.+1%:R); split=> //.
by eexists; first by []; split.
Qed.
Print Assumptions C253_modes_refuted.

(** the starting density keeps its electrons only in an orthonormal basis *)
Theorem C253_density_partial (F : fieldType) n (C S D : 'M[F]_n) :
  C^T *m S *m C = 1%:M -> S = 1%:M -> \tr (fci_dm0 C S D) = \tr (D *m S).
Proof.
move=> h hS; rewrite fci_trace // hS; move: h; rewrite hS mulmx1 => h.
by rewrite (mulmx1C h).
Qed.
Print Assumptions C253_density_partial.
Theorem C253_density_refuted :
  exists (C S D : 'M[rat]_1), C^T *m S *m C = 1%:M /\ \tr (fci_dm0 C S D) <> \tr (D *m S).
Proof.
exists (2%:R^-1)%:M, 4%:R%:M, 1%:M.
have h : (2%:R^-1)%:M^T *m 4%:R%:M *m (2%:R^-1)%:M = 1%:M :> 'M[rat]_1.
  by rewrite tr_scalar_mx -!scalar_mxM.
by split=> //; rewrite fci_trace // tr_scalar_mx -!scalar_mxM !mxtrace_scalar.
Qed.
Print Assumptions C253_density_refuted.

Example C253_example :
  fci_hcore (1%:M : 'M[rat]_1) 1%:M (fun _ : 'I_2 => 2%:R%:M) = 5%:R%:M.
Proof.
rewrite /fci_hcore /ao2mo trmx1 !mul1mx !mulmx1 sumr_const card_ord -scalar_mxM.
by apply/matrixP => i j; rewrite !ord1 !mxE.
Qed.

(** C254: dipole integrals with the nuclei in the origin *)
Theorem C254_neutral_partial (F : fieldType) n natom (P r S : 'M[F]_n) (Z R : 'I_natom -> F) :
  \sum_i Z i != 0 -> expect P S = \sum_i Z i ->
  expect P (dipole_ao r S true Z R None) = all_charges P r Z R.
Proof.
by move=> hz hN; rewrite expect_dip /origin subr0 hN /charge_center divfK.
Qed.
Print Assumptions C254_neutral_partial.

Theorem C254_translation (F : fieldType) n natom (r S : 'M[F]_n) (Z R : 'I_natom -> F) t :
  \sum_i Z i != 0 ->
  dipole_ao (r + t *: S) S true Z (fun i => R i + t) None = dipole_ao r S true Z R None.
Proof.
move=> hz; rewrite /dipole_ao /origin center_shift // !subr0 scalerDl.
by rewrite [_ *: S + _]addrC addrKA.
Qed.
Print Assumptions C254_translation.

Theorem C254_electrons_partial (F : fieldType) n natom (P r S : 'M[F]_n) (Z R : 'I_natom -> F) s :
  expect P (dipole_ao r S false Z R (Some s)) = - expect P (r + s *: S).
Proof.
rewrite expect_dip /origin add0r /expect mulmxDr -scalemxAr linearD linearZ /=.
by rewrite mulNr opprD addrC.
Qed.
Print Assumptions C254_electrons_partial.

Theorem C254_ion_refuted :
  exists (P r S : 'M[rat]_1) (Z R : 'I_1 -> rat),
  \sum_i Z i != 0 /\ expect P (dipole_ao r S true Z R None) <> all_charges P r Z R.
Proof.
exists 1%:M, 0, 1%:M, (fun _ => 2%:R), (fun _ => 1).
rewrite expect_dip /all_charges /expect mulmx0 mulmx1 mxtrace0 mxtrace1 /origin /charge_center.
by rewrite !big_ord1.
Qed.
Print Assumptions C254_ion_refuted.

(** shifting a neutral molecule, nuclei and electrons, leaves its dipole; the
    option changes it *)
Theorem C254_shift_refuted :
  exists (P r S : 'M[rat]_1) (Z R : 'I_1 -> rat) s,
  [/\ expect P S = \sum_i Z i,
      all_charges P (r + s *: S) Z (fun i => R i + s) = all_charges P r Z R &
      expect P (dipole_ao r S true Z R (Some s))
      <> all_charges P (r + s *: S) Z (fun i => R i + s)].
Proof.
exists 1%:M, 0, 1%:M, (fun _ => 1), (fun _ => 0), 1.
rewrite expect_dip /all_charges /expect mulmx0 mul1mx mxtrace0 mxtrace1 /origin /charge_center.
by rewrite !big_ord1 add0r scale1r mul1mx mxtrace1; split.
Qed.
Print Assumptions C254_shift_refuted.

Example C254_example :
  expect (1%:M : 'M[rat]_1) (dipole_ao 0 1%:M true (fun _ : 'I_1 => 1) (fun _ => 3%:R) None) = 3%:R
  /\ expect (1%:M : 'M[rat]_1) 1%:M = \sum_(i < 1) 1.
Proof.
rewrite expect_dip /expect mulmx0 mulmx1 mxtrace0 mxtrace1 /origin /charge_center.
by rewrite !big_ord1.
Qed.
