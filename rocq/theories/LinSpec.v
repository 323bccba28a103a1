(** What the linear-algebra kernels should compute, stated without their
    formulas. *)
From mathcomp Require Import all_ssreflect all_algebra.
Set Implicit Arguments.
Unset Strict Implicit.
Unset Printing Implicit Defensive.
Import GRing.Theory.
Local Open Scope ring_scope.

Section Spec.
Variables (F : fieldType) (conj : {rmorphism F -> F}).

(** Overlap of two Slater determinants: the determinant of T^H W. *)
Definition slater p n (T W : 'M[F]_(p, n)) : F := \det ((map_mx conj T)^T *m W).

(** Action of 1 + e c+_a c_b on the orbitals of a determinant. *)
Definition excite p n (a b : 'I_p) (e : F) (W : 'M[F]_(p, n)) : 'M[F]_(p, n) :=
  (1%:M + e *: delta_mx a b) *m W.

(** G collects the linear responses <T|c+_a c_b|W> / <T|W>. *)
Definition is_green p n (T W : 'M[F]_(p, n)) (G : 'M[F]_p) : Prop :=
  forall a b e, slater T (excite a b e W) = slater T W * (1 + e * G a b).

(** Wick's formulas for the energy of a pair of spin Green's functions. *)
Definition one_body p (h G : 'M[F]_p) : F := \sum_a \sum_b h a b * G a b.
Definition eri p nchol (L : 'I_nchol -> 'M[F]_p) (a r b s : 'I_p) : F :=
  \sum_g L g a r * L g b s.
Definition direct p (V : 'I_p -> 'I_p -> 'I_p -> 'I_p -> F) (G : 'M[F]_p) : F :=
  \sum_a \sum_r \sum_b \sum_s V a r b s * G a r * G b s.
Definition exchange p (V : 'I_p -> 'I_p -> 'I_p -> 'I_p -> F) (G : 'M[F]_p) : F :=
  \sum_a \sum_r \sum_b \sum_s V a r b s * G a s * G b r.

(** Taylor polynomial of the exponential of A applied to phi. *)
Definition exp_poly (V : lmodType F) (A : V -> V) (order : nat) (phi : V) : V :=
  \sum_(k < order.+1) (k`!%:R)^-1 *: iter k A phi.

(** Log of the ratio of the unit Gaussian density at xi - s to that at xi. *)
Definition gauss_ratio nf (s xi : 'I_nf -> F) : F :=
  \sum_g (2%:R^-1 * (xi g) ^+ 2 - 2%:R^-1 * (xi g - s g) ^+ 2).

(** Sum of half squares of the field operators of one mode. *)
Definition half_squares nao (A : algType F) (hat : {linear 'M[F]_nao -> A}) (B : A)
   (fs : seq ('M[F]_nao * F)) : A :=
  \sum_(f <- fs) 2%:R^-1 *: (hat f.1 + f.2 *: B) ^+ 2.

(** The bilinear coupling sum_m (A_m F_m)(B_m B_m). *)
Definition coupling nao nmodes (A : algType F) (hat : {linear 'M[F]_nao -> A})
   (Afac : 'I_nmodes -> F) (chol : 'I_nmodes -> 'M[F]_nao) (Bfac : 'I_nmodes -> F)
   (B : 'I_nmodes -> A) : A :=
  \sum_m hat (Afac m *: chol m) * (Bfac m *: B m).

(** H = h + 1/2 sum_g (L_g^2 - (L_g L_g)): the normal-ordered two-body
    Hamiltonian, [hat] sending a matrix to its one-body operator. *)
Definition hamiltonian p nchol (A : algType F) (hat : {linear 'M[F]_p -> A})
   (h : 'M[F]_p) (L : 'I_nchol -> 'M[F]_p) : A :=
  hat h + 2%:R^-1 *: \sum_g ((hat (L g)) ^+ 2 - hat (L g *m L g)).
(** The same Hamiltonian with one-body part t and fields shifted by l. *)
Definition shifted_hamiltonian p nchol (A : algType F) (hat : {linear 'M[F]_p -> A})
   (t : 'M[F]_p) (L : 'I_nchol -> 'M[F]_p) (l : 'I_nchol -> F) : A :=
  hat t + 2%:R^-1 *: (\sum_g (hat (L g) - l g *: 1) ^+ 2)
  - (2%:R^-1 * \sum_g (l g) ^+ 2) *: 1.

(** Fock and density commute in the overlap metric. *)
Definition commute_in_metric p (s d f : 'M[F]_p) : Prop := s *m d *m f = f *m d *m s.
Definition hermitian p (M : 'M[F]_p) : Prop := (map_mx conj M)^T = M.
End Spec.
