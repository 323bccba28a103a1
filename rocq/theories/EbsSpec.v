(** What a propagation step should do to first order in the time step, stated
    without the code's formulas. *)
From mathcomp Require Import all_ssreflect all_algebra.
From Verif Require Import LinSpec.
Set Implicit Arguments.
Unset Strict Implicit.
Unset Printing Implicit Defensive.
Import GRing.Theory Num.Theory.
Local Open Scope ring_scope.

Section Spec.
Variables (F : numFieldType).

(** f(s) = a + b s + c s^2 up to a multiple of |s|^3, for all small s. *)
Definition expands (f : F -> F) (a b c : F) : Prop :=
  exists C d : F, [/\ 0 <= C, 0 < d &
    forall s, `|s| <= d -> `|f s - (a + b * s + c * s ^+ 2)| <= C * `|s| ^+ 3].

(** With s = sqrt(dt): f = 1 - rate dt up to a multiple of dt^(3/2). *)
Definition decays_at (f : F -> F) (rate : F) : Prop := expands f 1 0 (- rate).

(** Contracts of the exponentials: the first terms of their series. *)
Definition is_expm (expm : forall n, 'M[F]_n -> 'M[F]_n) : Prop :=
  forall n (A : 'M[F]_n), exists C d : F, [/\ 0 <= C, 0 < d &
    forall t, `|t| <= d -> forall i j,
      `|expm n (t *: A) i j - (1%:M + t *: A) i j| <= C * `|t| ^+ 2].
Definition is_exp (expf : F -> F) : Prop :=
  exists C d : F, [/\ 0 <= C, 0 < d &
    forall c, `|c| <= d -> `|expf c - (1 + c + c ^+ 2 / 2%:R)| <= C * `|c| ^+ 3].

(** Averages over independent fields of mean zero and variance one: a linear
    functional with the first two moments of the normal distribution. *)
Record unit_fields nf (E : (('I_nf -> F) -> F) -> F) : Prop := UnitFields {
  avg_add : forall f g, E (fun x => f x + g x) = E f + E g;
  avg_scale : forall c f, E (fun x => c * f x) = c * E f;
  avg_ext : forall f g, f =1 g -> E f = E g;
  avg_one : E (fun=> 1) = 1;
  avg_mean : forall g, E (fun x => x g) = 0;
  avg_cov : forall g h, E (fun x => x g * x h) = (g == h)%:R }.

(** A finite rule with weights: average of a function. *)
Definition rule nf (ws : seq (F * ('I_nf -> F))) (f : ('I_nf -> F) -> F) : F :=
  \sum_(w <- ws) w.1 * f w.2.

(** Electronic energy of a pair of spin Green's functions (Wick). *)
Definition electronic p nf (L : 'I_nf -> 'M[F]_p) (ha hb Ga Gb : 'M[F]_p) : F :=
  one_body ha Ga + one_body hb Gb
  + 2%:R^-1 * (direct (eri L) (Ga + Gb) - (exchange (eri L) Ga + exchange (eri L) Gb)).

(** Mixed expectation value of an operator on the Fock space. *)
Definition mixed (conj : F -> F) d (psi phi : 'cV[F]_d) (M : 'M[F]_d) : F :=
  (\sum_i \sum_j conj (psi i 0) * M i j * phi j 0) / (\sum_i conj (psi i 0) * phi i 0).
End Spec.
