(** Model of the photon-mode routines of openms/lib/boson.py and of the
    dressing factors of openms/mqed/scqedhf.py and vtqedhf.py.

    Numbers are real numbers (floating-point rounding is not modelled).
    Matrices are functions of two indices together with their dimensions.
    numpy broadcasting over orbital indices is dropped: a routine that maps an
    array [factor] elementwise is modelled as the function of one element. *)
From Coq Require Import Reals.
From Verif Require Import Base.
Open Scope R_scope.

Definition mat := nat -> nat -> R.
Definition lsum (l : list R) : R := fold_right Rplus 0 l.
Definition sumn (n : nat) (f : nat -> R) : R := lsum (map f (seq 0 n)).
Definition setm (m : mat) (i j : nat) (x : R) : mat :=
  fun a b => if (a =? i)%nat && (b =? j)%nat then x else m a b.

(** ** Packed symmetric matrices, lib/boson.py 30-76 *)

(** packed_index, lines 30-33 *)
Definition packed_index (i j : nat) : nat :=
  let (i, j) := if (i <? j)%nat then (j, i) else (i, j) in (i * (i + 1) / 2 + j)%nat.

(** numpy.tril_indices(n) and numpy.tril_indices(n, k=-1), row by row *)
Definition tril (n : nat) : list (nat * nat) :=
  flat_map (fun i => map (fun j => (i, j)) (seq 0 (S i))) (seq 0 n).
Definition tril_strict (n : nat) : list (nat * nat) :=
  flat_map (fun i => map (fun j => (i, j)) (seq 0 i)) (seq 0 n).

(** pack_symmetric, lines 58-76 *)
Definition pack_symmetric (rows cols : nat) (m : mat) : res (list R) :=
  if negb (rows =? cols)%nat then Err AssertionError
  else Ok (map (fun ij => m (fst ij) (snd ij)) (tril rows)).

(** unpack_symmetric, lines 36-56: the inner loop over j < i, then the
    diagonal element; [idx] runs through [A]. *)
Definition unpack_inner (A : list R) (fac : R) (i : nat) (st : res (mat * nat)) (j : nat) : res (mat * nat) :=
  rbind st (fun st => let (full, idx) := st in
  rbind (index A idx) (fun a => Ok (setm (setm full i j (a / fac)) j i (a / fac), S idx))).
Definition unpack_row (A : list R) (fac : R) (st : res (mat * nat)) (i : nat) : res (mat * nat) :=
  rbind (fold_left (unpack_inner A fac i) (seq 0 i) st) (fun st => let (full, idx) := st in
  rbind (index A idx) (fun a => Ok (setm full i i a, S idx))).
Definition unpack_symmetric (A : list R) (mdim : nat) (fac : R) : res mat :=
  rmap fst (fold_left (unpack_row A fac) (seq 0 mdim) (Ok (fun _ _ => 0, 0%nat))).

(** numpy.einsum("m, m...-> ...") over one element *)
Fixpoint dot (a b : list R) : R :=
  match a, b with x :: a', y :: b' => x * y + dot a' b' | _, _ => 0 end.

(** ** Displacement factors, lib/boson.py 799-992 *)

(** scipy's generalised Laguerre polynomial (its textbook formula) *)
Definition genlaguerre (n a : nat) (x : R) : R :=
  lsum (map (fun i => (-1) ^ i * C (n + a) (n - i) * x ^ i / INR (fact i)) (seq 0 (S n))).

(** factorial(n) / factorial(m) *)
Definition fratio (n m : nat) : R := INR (fact n) / INR (fact m).

(** displacement_matrix, lines 799-847: the packed array, before and after the
    Gaussian factor, then the contraction with the packed density matrix *)
Definition disp_val (A : R) (im jn : nat) : R :=
  if (im =? jn)%nat then genlaguerre im 0 (A ^ 2)
  else 2 * sqrt (fratio jn im) * (- A) ^ (im - jn) * genlaguerre jn (im - jn) (A ^ 2).
Definition disp_mat (mdim : nat) (A : R) (scale_by_exp : bool) : list R :=
  let z := repeat 0 (mdim * (mdim + 1) / 2) in
  let d := fold_left (fun d ij => upd d (packed_index (fst ij) (snd ij)) (disp_val A (fst ij) (snd ij))) (tril mdim) z in
  if scale_by_exp then map (fun v => v * exp (- (1/2) * A ^ 2)) d else d.
Definition displacement_matrix (mdim : nat) (A : R) (pdm : mat) (scale_by_exp : bool) : res R :=
  rmap (fun p => dot p (disp_mat mdim A scale_by_exp)) (pack_symmetric mdim mdim pdm).

(** displacement_exp_val, lines 849-888 *)
Definition displacement_exp_val (mdim : nat) (A : R) (pdm : mat) (scale_by_exp : bool) : R :=
  let off := fold_left (fun d ij => let (im, jn) := ij : nat * nat in
      d + 2 * pdm im jn * sqrt (fratio jn im) * (- A) ^ (im - jn) * genlaguerre jn (im - jn) (A ^ 2))
      (tril_strict mdim) 0 in
  let d := fold_left (fun d m => d + pdm m m * genlaguerre m 0 (A ^ 2)) (seq 0 mdim) off in
  if scale_by_exp then d * exp (- (1/2) * A ^ 2) else d.

(** displacement_deriv_kernel, lines 891-953 *)
Definition deriv_off (A : R) (pdm : mat) (d : R) (ij : nat * nat) : R :=
  let (im, jn) := ij in
  let LA := genlaguerre jn (im - jn) (A ^ 2) in
  let Ga := LA * (- A) ^ (im - jn) in
  let tmp1 := - A * Ga in
  let tmp2 := if (1 <? im - jn)%nat then - INR (im - jn) * (- A) ^ (im - jn - 1) * LA else 0 in
  let tmp2 := if (0 <? jn)%nat
    then tmp2 - (- A) ^ (im - jn) * (2 * A) * genlaguerre (jn - 1) (im - jn + 1) (A ^ 2) else tmp2 in
  d + 2 * (sqrt (fratio jn im) * (tmp1 + tmp2)) * pdm im jn.
Definition deriv_diag (A : R) (pdm : mat) (d : R) (m : nat) : R :=
  let d := d + pdm m m * genlaguerre m 0 (A ^ 2) * (- A) in
  if (0 <? m)%nat then d - pdm m m * (2 * A) * genlaguerre (m - 1) 1 (A ^ 2) else d.
Definition displacement_deriv_kernel (mdim : nat) (A : R) (pdm : mat) : R :=
  fold_left (deriv_diag A pdm) (seq 0 mdim) (fold_left (deriv_off A pdm) (tril_strict mdim) 0)
  * exp (- (1/2) * A ^ 2).
(** displacement_deriv_vt and displacement_deriv_vsq, lines 963-992 *)
Definition displacement_deriv_vt (mdim : nat) (A : R) (pdm : mat) : R := displacement_deriv_kernel mdim A pdm * A.

(** ** Dressing factors of one element, mqed/scqedhf.py and vtqedhf.py *)

(** ci = boson_coeff[idx : idx + mdim, idx] with idx = sum(nboson_states[:imode]),
    and its outer product (scqedhf.py 831-834; real coefficients) *)
Fixpoint nsum (l : list nat) : nat := match l with [] => 0%nat | x :: r => (x + nsum r)%nat end.
Definition mode_coeff (nboson : list nat) (boson_coeff : mat) (imode : nat) : nat -> R :=
  let idx := nsum (firstn imode nboson) in fun m => boson_coeff (idx + m)%nat idx.
Definition outer (c : nat -> R) : mat := fun m n => c m * c n.

(** FC_factor, scqedhf.py 802-846: [d] is the element of diff_eta, [ci] the
    coefficients, [F] the squeezing parameter, [om] the frequency *)
Definition FC_factor (mdim : nat) (ci : nat -> R) (F om d : R) : res R :=
  let tmp := exp F / om in
  if (1 <? mdim)%nat then displacement_matrix mdim (tmp * d) (outer ci) true
  else Ok (exp (- (1/2) * (tmp * d) ^ 2)).
(** the elements of diff_eta: one-body (with shift) and two-body *)
Definition diff1 (eta : nat -> R) (shift : R) (p q : nat) : R := eta p - eta q + shift.
Definition diff2 (eta : nat -> R) (p q r s : nat) : R := eta p - eta q + eta r - eta s + 0.

(** gaussian_derivative_vectorized, scqedhf.py 849-881 *)
Definition gaussian_derivative_vectorized (mdim : nat) (ci : nat -> R) (F om d : R) : R :=
  let tmp := exp F / om in
  if (1 <? mdim)%nat then displacement_deriv_kernel mdim (tmp * d) (outer ci)
  else - exp (- (1/2) * (tmp * d) ^ 2) * (tmp ^ 2 * d).

(** gaussian_derivative_sq_vector, vtqedhf.py 175-211 (of one element [d] of
    its own diff_eta) *)
Definition gaussian_derivative_sq (mdim : nat) (ci : nat -> R) (F om d : R) : R :=
  let tmp := exp F / om in
  if (1 <? mdim)%nat then displacement_deriv_vt mdim (tmp * d) (outer ci)
  else - exp (- (1/2) * (tmp * d) ^ 2) * (tmp * d) ^ 2.

(** gaussian_derivative_f_vector, vtqedhf.py 214-260 *)
Definition gaussian_derivative_f (mdim : nat) (ci : nat -> R) (F om fvar d : R) : R :=
  let tmp := exp F / om in
  (if (1 <? mdim)%nat then displacement_deriv_vt mdim (tmp * d) (outer ci)
   else - exp (- (1/2) * (tmp * d) ^ 2) * (tmp * d) ^ 2) / fvar.

(** ** Bosonic Hamiltonian, lib/boson.py 148-212 *)

(** the block H0 of one mode, lines 197-208 *)
Definition ham_block (om z F : R) : mat := fun i j =>
  (if (i =? j)%nat then (INR i * cosh (2 * F) + sinh F * sinh F) * om else 0)
  + ((if (j =? S i)%nat then sqrt (INR j) else 0) + (if (i =? S j)%nat then sqrt (INR i) else 0)) * z.
(** Hb[idx:idx+mdim, idx:idx+mdim] = H0 *)
Definition set_block (Hb : mat) (idx mdim : nat) (H0 : mat) : mat := fun i j =>
  if (idx <=? i)%nat && (i <? idx + mdim)%nat && (idx <=? j)%nat && (j <? idx + mdim)%nat
  then H0 (i - idx)%nat (j - idx)%nat else Hb i j.
Definition ham_step (nboson : list nat) (omega za Fa : list R) (st : res (mat * nat)) (imode : nat) : res (mat * nat) :=
  rbind st (fun st => let (Hb, idx) := st in
  rbind (index nboson imode) (fun mdim => rbind (index Fa imode) (fun F =>
  rbind (index omega imode) (fun om => rbind (index za imode) (fun z =>
  Ok (set_block Hb idx mdim (ham_block om z F), (idx + mdim)%nat)))))).
Definition get_bosonic_Ham (nmodes : nat) (nboson : list nat) (omega za Fa : list R) : res mat :=
  rmap fst (fold_left (ham_step nboson omega za Fa) (seq 0 nmodes) (Ok (fun _ _ => 0, 0%nat))).

(** The photon energy and its squeezing gradient in update_boson_coeff,
    lib/boson.py 1131-1149; [c] is the first column of the eigenvectors. *)
Definition mode_energy (c : nat -> R) (idx mdim : nat) (om F : R) : R :=
  om * sumn mdim (fun m => c (idx + m)%nat * c (idx + m)%nat * ((INR m + /2) * cosh (2 * F) - /2)).
Definition mode_grad (c : nat -> R) (idx mdim : nat) (om F : R) : R :=
  om * sumn mdim (fun m => c (idx + m)%nat * c (idx + m)%nat * ((INR m + /2) * sinh (2 * F) * 2)).
Fixpoint photon_energy (c : nat -> R) (idx : nat) (modes : list (nat * R * R)) : R :=
  match modes with
  | [] => 0
  | (mdim, om, F) :: r => mode_energy c idx mdim om F + photon_energy c (idx + mdim) r
  end.
Fixpoint photon_grad (c : nat -> R) (idx : nat) (modes : list (nat * R * R)) : list R :=
  match modes with
  | [] => []
  | (mdim, om, F) :: r => mode_grad c idx mdim om F :: photon_grad c (idx + mdim) r
  end.

(** ** Photon density matrix in the original Fock representation *)

(** make_rdm1_org, mqed/qedhf.py 822-848: rho_b for an electron density of
    trace [tr]; rho_tot[m,p,n,q] = rho[p,q] zm zn, so einsum("mpnp->mn") is
    tr zm zn and the trace of rho_e is the sum over m of tr zm zm. *)
Definition fock_amp (z : R) (m : nat) : R := exp (- (1/2) * z ^ 2) * z ^ m * sqrt (INR (fact m)).
Definition rho_b (tr z : R) (nfock m n : nat) : R :=
  (tr * fock_amp z m * fock_amp z n) / sumn nfock (fun k => tr * fock_amp z k * fock_amp z k).
