(** What the bosonic estimators should give. *)
From mathcomp Require Import all_ssreflect all_algebra.
Set Implicit Arguments.
Unset Strict Implicit.
Unset Printing Implicit Defensive.
Import GRing.Theory.
Local Open Scope ring_scope.

Section Spec.
Variables (F : fieldType) (conj : {rmorphism F -> F}) (s : nat -> F).

(** <n| b^+ + b |m>, with s n for the square root of n *)
Definition quad (n m : nat) : F :=
  if n == m.+1 then s n else if m == n.+1 then s m else 0.

(** sum over modes, each seen through its own block of G starting at [off] *)
Fixpoint per_mode (f : nat -> F -> (nat -> nat -> F) -> F) (off : nat)
   (modes : seq (nat * F)) (G : nat -> nat -> F) : F :=
  match modes with
  | [::] => 0
  | (d, z) :: r => f d z (fun i j => G (off + i)%N (off + j)%N) + per_mode f (off + d) r G
  end.
Definition coupling_energy := per_mode (fun d z G => z * \sum_(n < d) \sum_(m < d) quad n m * G n m) 0%N.
Definition number_energy := per_mode (fun d w G => \sum_(n < d) w * n%:R * G n n) 0%N.

(** the block-diagonal matrix with blocks z (b^+ + b) *)
Fixpoint blocks (modes : seq (nat * F)) (i j : nat) : F :=
  match modes with
  | [::] => 0
  | (d, z) :: r =>
    if (i < d)%N then (if (j < d)%N then z * quad i j else 0)
    else if (j < d)%N then 0 else blocks r (i - d) (j - d)
  end.

(** mixed estimator of omega b^+ b for one mode *)
Definition mixed_number d (w : F) (phi psi : 'I_d -> F) : F :=
  (\sum_(n < d) w * n%:R * (phi n * conj (psi n))) / \sum_(n < d) phi n * conj (psi n).
End Spec.

(** Two vectors describe the same state. *)
Definition same_ray (F : fieldType) n (phi phi' : 'I_n -> F) : Prop :=
  exists c, forall k, phi' k = c * phi k.
