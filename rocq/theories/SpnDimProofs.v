From Coq Require Import QArith Qround ZArith List Lia.
From Verif Require Import SpnDimModel.
Local Open Scope Z_scope.

Lemma ndim_half (n : nat) : ndim (Z.of_nat n # 2) = Z.of_nat n + 1.
Proof.
  unfold ndim.
  assert (h : (((Z.of_nat n # 2) * (2 # 1) + (1 # 1) + (1 # 100000000)) == inject_Z (Z.of_nat n + 1) + (1 # 100000000))%Q)
    by (unfold Qeq, Qplus, Qmult, inject_Z, Qnum, Qden; lia).
  assert (hx : Qle_bool 0 ((Z.of_nat n # 2) * (2 # 1) + (1 # 1) + (1 # 100000000)) = true).
  { apply Qle_bool_iff. rewrite h. unfold Qle, Qplus, inject_Z, Qnum, Qden. lia. }
  rewrite hx, (Qfloor_comp _ _ h). unfold Qfloor, Qplus, inject_Z, Qnum, Qden.
  symmetry. apply Z.div_unique_pos with (r := 1); lia.
Qed.
