From Coq Require Import QArith ZArith List.
From Verif Require Import SpnDimModel SpnDimProofs.
Import ListNotations.

(** C259: the dimension of a spin n/2 is n + 1 *)
Theorem C259_dimension (n : nat) : ndim (Z.of_nat n # 2) = (Z.of_nat n + 1)%Z.
Proof. exact (ndim_half n). Qed.
Print Assumptions C259_dimension.

(** a system of spins always holds one spin one half *)
Theorem C259_system_refuted : exists l : list Q, length l = 2%nat /\
  snd (new_system (Some l)) = 1%nat /\ fst (new_system (Some l)) <> l /\
  (forall l', new_system (Some l') = new_system None).
Proof. exists [1; 1]. repeat split. discriminate. Qed.
Print Assumptions C259_system_refuted.

Example C259_dimension_example : ndim (3 # 2) = 4%Z /\ ndim (1 # 2) = 2%Z.
Proof. split; reflexivity. Qed.
