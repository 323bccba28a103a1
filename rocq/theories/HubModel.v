(** Model of the mean-field quantities of the Hubbard and Hubbard-Holstein
    chains: openms/models/hubbard.py, openms/models/hh_model.py and block_diag
    of openms/lib/ov_blocks.py.  L sites, spin orbitals numbered up first, so
    a spin-orbital matrix is a block matrix.  The hopping matrix is an
    argument (its values are the subject of HopModel). *)
From mathcomp Require Import all_ssreflect all_algebra.
Set Implicit Arguments.
Unset Strict Implicit.
Unset Printing Implicit Defensive.
Import GRing.Theory Num.Theory.
Local Open Scope ring_scope.

Section Hub.
Variables (F : realFieldType) (L : nat).
Local Notation M := 'M[F]_L.
Local Notation S2 := 'I_(L + L).
Local Notation half := (2%:R^-1 : F).

(** block_diag, ov_blocks.py 6-20 *)
Definition block_diag {a b c d : nat} (A : 'M[F]_(a, c)) (B : 'M[F]_(b, d)) : 'M[F]_(a + b, c + d) :=
  block_mx A 0 0 B.

(** the density of the first k orbitals: einsum("ai,bi->ab", c[:, :k], c[:, :k]),
    hubbard.py 35-37, hh_model.py 88-89 *)
Definition dens (c : M) (k : nat) : M := \matrix_(a, b) \sum_(i < L | (i < k)%N) c a i * c b i.
(** Hubbard1D.__init__, hubbard.py 32-33 and HHModel.__init__, hh_model.py 83-84 *)
Definition hub_na (N : nat) : nat := (N - N %/ 2)%N.
Definition hub_nb (N : nat) : nat := (N %/ 2)%N.
Definition hh_na (N : nat) : nat := (N %/ 2)%N.
Definition hh_nb (N : nat) : nat := (N %/ 2)%N.

(** umatS, hubbard.py 83-89, hh_model.py 159-165 *)
Definition umatS (U : F) (p q r s : 'I_L) : F := if [&& p == q, q == r & r == s] then U else 0.
(** umat, hubbard.py 71-80, hh_model.py 174-183: the loop writes the entries
    (i,L+i,i,L+i), (L+i,i,L+i,i), (i,i,i,i) and (L+i,L+i,L+i,L+i) *)
Definition umat (U : F) (p q r s : S2) : F :=
  if [exists i : 'I_L, ([&& p == lshift L i, q == rshift L i, r == lshift L i & s == rshift L i]
                     || [&& p == rshift L i, q == lshift L i, r == rshift L i & s == lshift L i])
                    || ([&& p == lshift L i, q == lshift L i, r == lshift L i & s == lshift L i]
                     || [&& p == rshift L i, q == rshift L i, r == rshift L i & s == rshift L i])]
  then U else 0.
(** U - U.transpose((0, 1, 3, 2)) *)
Definition anti {n : nat} (u : 'I_n -> 'I_n -> 'I_n -> 'I_n -> F) (p q r s : 'I_n) : F := u p q r s - u p q s r.

(** fock, hubbard.py 92-100, hh_model.py 186-194, for spin densities pa, pb *)
Definition jk (U : F) (P : 'M[F]_(L + L)) : 'M[F]_(L + L) :=
  \matrix_(p, q) \sum_r \sum_s anti (umat U) p r q s * P r s.
Definition fock (T : M) (U : F) (pa pb : M) : 'M[F]_(L + L) :=
  block_diag T T + jk U (block_diag pa pb).

(** einsum("ij,ji->", A, B) *)
Definition dot2 {n : nat} (A B : 'M[F]_n) : F := \sum_i \sum_j A i j * B j i.
(** Hubbard1D.hf_energy, hubbard.py 103-109 *)
Definition hf_energy (T : M) (U : F) (pa pb : M) : F :=
  half * (dot2 (block_diag pa pb) (fock T U pa pb) + dot2 (block_diag pa pb) (block_diag T T)).

(** HHModel: gmat without gij, hh_model.py 93, 103-104 *)
Definition gmat0 (g : F) (I : 'I_L) : 'M[F]_(L + L) :=
  \matrix_(a, b) if ((a == lshift L I) && (b == lshift L I)) || ((a == rshift L I) && (b == rshift L I)) then g else 0.
(** xi, hh_model.py 105: einsum("Iab,ab->I", gmat, ptot) / w *)
Definition xi (shift : bool) (w : F) (gm : 'I_L -> 'M[F]_(L + L)) (P : 'M[F]_(L + L)) (I : 'I_L) : F :=
  if shift then (\sum_a \sum_b gm I a b * P a b) / w else 0.
(** const, hh_model.py 106-112 *)
Definition hh_const (shift : bool) (w : F) (gm : 'I_L -> 'M[F]_(L + L)) (P : 'M[F]_(L + L)) : F :=
  if shift then - (\sum_I w * xi true w gm P I ^+ 2) else 0.
(** HHModel.hf_energy, hh_model.py 202-208 *)
Definition hh_energy (T : M) (U w : F) gm (shift : bool) (pa pb : M) : F :=
  half * (dot2 (block_diag pa pb) (fock T U pa pb) + dot2 (block_diag pa pb) (block_diag T T))
  + hh_const shift w gm (block_diag pa pb).
(** the site-basis matrix whose blocks HHModel.g_fock returns, hh_model.py
    225-245: fock() - 2 sum_I xi_I gmat_I *)
Definition hh_fock (T : M) (U w : F) gm (shift : bool) (pa pb : M) : 'M[F]_(L + L) :=
  fock T U pa pb - 2%:R *: \sum_I xi shift w gm (block_diag pa pb) I *: gm I.

(** four-index transformation: einsum("pqrs,pw,qx,ry,sz->wxyz", V, c1, c2, c3, c4) *)
Definition trans4 {n : nat} (V : 'I_n -> 'I_n -> 'I_n -> 'I_n -> F) (c1 c2 c3 c4 : 'M[F]_n) (w x y z : 'I_n) : F :=
  \sum_p \sum_q \sum_r \sum_s V p q r s * c1 p w * c2 q x * c3 r y * c4 s z.
(** Ua_mo of g_aint, hubbard.py 312-314, hh_model.py 255-261 *)
Definition ua_mo (U : F) (ca cb : M) : S2 -> S2 -> S2 -> S2 -> F :=
  let C := block_diag ca cb in trans4 (anti (umat U)) C C C C.
(** u_aint_tot, hubbard.py 181-189 *)
Definition va_mo (U : F) (c : M) := trans4 (anti (umatS U)) c c c c.
Definition vab_mo (U : F) (ca cb : M) := trans4 (umatS U) ca cb ca cb.
(** u_fock before it is cut into blocks, hubbard.py 154-167; foa and fob are
    the occupations of the first na and nb orbitals *)
Definition occ (k : nat) (i : 'I_L) : F := if (i < k)%N then 1 else 0.
Definition u_fock_a (T : M) (U : F) (ca cb : M) (na nb : nat) : M := \matrix_(p, r)
  ((\sum_i \sum_j T i j * ca i p * ca j r) + (\sum_q va_mo U ca p q r q * occ na q)
   + (\sum_q vab_mo U ca cb p q r q * occ nb q)).
Definition u_fock_b (T : M) (U : F) (ca cb : M) (na nb : nat) : M := \matrix_(q, s)
  ((\sum_i \sum_j T i j * cb i q * cb j s) + (\sum_p va_mo U cb q p s p * occ nb p)
   + (\sum_p vab_mo U ca cb p q p s * occ na p)).
(** the matrix in the orbital basis whose blocks Hubbard1D.g_fock returns,
    hubbard.py 126-139 *)
Definition g_fock (T : M) (U : F) (ca cb : M) (na nb : nat) : 'M[F]_(L + L) :=
  \matrix_(i, j) \sum_p \sum_q block_diag ca cb p i * fock T U (dens ca na) (dens cb nb) p q * block_diag ca cb q j.
End Hub.
