(** Model of the compiled dressing factors: displacement_matrix of
    openms/lib/qmclibs/src/qedhf.cpp and the Gaussian factors of
    openms/lib/qedlibs/qed.cpp.  Numbers are real numbers; an array is the
    function from flat indices to its entries; GSL's Laguerre polynomial is the
    formula of [BosonModel.genlaguerre]. *)
From Coq Require Import Reals.
From Verif Require Import Base BosonModel.
Open Scope R_scope.

(** packed_index, qedhf.cpp 21-24 *)
Definition cpp_index (i j : nat) : nat :=
  let (i, j) := if (j <? i)%nat then (j, i) else (i, j) in (j * (j + 1) / 2 + i)%nat.

(** the element of disp_mat before the Gaussian, 86-98 *)
Definition cpp_val (f : R) (m n : nat) : R :=
  if (m =? n)%nat then genlaguerre m 0 (f * f)
  else 2 * sqrt (INR (fact n) / INR (fact m)) * (- f) ^ (m - n) * genlaguerre n (m - n) (f * f).

(** the loops over m and n <= m, 79-101, for one pair of orbitals; [junk] is the
    content of the new array *)
Definition store (s : nat -> R) (k : nat) (x : R) : nat -> R := fun y => if (y =? k)%nat then x else s y.
Definition cpp_fill (mdim : nat) (f : R) (junk : nat -> R) : nat -> R :=
  fold_left (fun s m => fold_left (fun s n => store s (cpp_index m n) (cpp_val f m n)) (seq 0 (S m)) s) (seq 0 mdim) junk.
(** 104-109: every element times exp(-f^2/2) *)
Definition cpp_scale (mdim : nat) (f : R) (s : nat -> R) : nat -> R :=
  fold_left (fun s k => store s k (s k * exp (- (1/2) * f * f))) (seq 0 (mdim * (mdim + 1) / 2)) s.
(** 112-118: contraction with the first entries of pdm *)
Definition cpp_contract (mdim : nat) (pdm s : nat -> R) : R :=
  fold_left (fun acc k => acc + pdm k * s k) (seq 0 (mdim * (mdim + 1) / 2)) 0.

(** displacement_matrix_cpp, 43-121: element (p, q) of disp_mat (as a function of
    the packed index) and of exp_val; std::vector::at reports a bad mode *)
Definition cpp_displacement (nboson : list nat) (imode nao : nat) (freq eta pdm vsq : nat -> R) (shift : R)
    (junk : nat -> R) (p q : nat) : res ((nat -> R) * R) :=
  rmap (fun mdim =>
    let f := exp (vsq imode) / freq imode * (eta (imode * nao + p)%nat - eta (imode * nao + q)%nat + shift) in
    let d := cpp_scale mdim f (cpp_fill mdim f junk) in (d, cpp_contract mdim pdm d))
  (index nboson imode).

(** a matrix handed over as it is: row-major *)
Definition row_major (mdim : nat) (m : mat) : nat -> R := fun k => m (k / mdim)%nat (k mod mdim)%nat.

(** ** qedlibs/qed.cpp *)

(** gaussian_factor_vt_qedhf, 13-22 *)
Definition gaussian_factor (freq ep eq er es : R) : R :=
  if (if Req_EM_T er (-1) then false else true) && (if Req_EM_T es (-1) then false else true)
  then exp (- (1/2) * ((ep + er - es - eq) / freq) ^ 2)
  else exp (- (1/2) * ((ep - eq) / freq) ^ 2).
(** test_gaussian, 25-41, element (p, q, r, s); the flat index is [count] *)
Definition gaussian_table (N : nat) (freq : R) (eta : nat -> R) (count : nat) : R :=
  gaussian_factor freq (eta (count / (N * N * N))%nat) (eta (count / (N * N) mod N)%nat) (eta (count / N mod N)%nat) (eta (count mod N)%nat).
