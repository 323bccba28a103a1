(** Properties C245-C247 of the trial wave functions. *)
From Coq Require Import Reals List ZArith Lia Lra.
From Verif Require Base.
From Verif Require Import TbsModel TbsSpec TbsProofs.
Import ListNotations.
Local Open Scope R_scope.

(** C245: the numbers of alpha and beta electrons are accepted exactly when
    they are non-negative, add up to the number of electrons and differ by
    the spin. *)
Theorem C245_electrons : forall N s na nb,
  electrons N s = Base.Ok (na, nb) <-> (0 <= na /\ 0 <= nb /\ na + nb = N /\ na - nb = s)%Z.
Proof. exact electrons_spec. Qed.
Print Assumptions C245_electrons.

Example C245_ex : electrons 7 3 = Base.Ok (5%Z, 2%Z) /\ electrons 7 2 = Base.Err Base.RuntimeError
  /\ electrons 2 6 = Base.Err Base.AssertionError.
Proof. repeat split. Qed.

(** C246: the bosonic trial is normalised and every mode is a coherent state
    of the requested displacement. *)
Theorem C246_norm : forall zs ns, length zs = length ns -> Exists (fun n => 0 < n)%nat ns ->
  length2 (boson_psi zs ns) = 1 /\ length2 (default_psi ns) = 1.
Proof.
  intros zs ns hl he. split; apply normalised; [apply raw_pos|apply default_pos]; assumption.
Qed.
Print Assumptions C246_norm.

(** Lowering a mode multiplies its amplitudes by the displacement of the mode. *)
Theorem C246_coherent : forall zs ns m k, length zs = length ns -> (m < length ns)%nat ->
  (S k < nth m ns 0)%nat ->
  sqrt (INR (S k)) * nth (S k) (block ns m (boson_psi zs ns)) 0
  = nth m zs 0 * nth k (block ns m (boson_psi zs ns)) 0.
Proof. exact psi_ladder. Qed.
Print Assumptions C246_coherent.

(** The modes share one unit of norm: in a trial of two equal modes each has
    half the displacement it has alone. *)
Theorem C246_shared_partial : forall z n, (0 < n)%nat ->
  displacement 0 (block [n; n] 0 (boson_psi [z; z] [n; n]))
  = displacement 0 (boson_psi [z] [n]) / 2.
Proof. exact two_modes. Qed.
Print Assumptions C246_shared_partial.

(** The displacement of a mode depends on the other modes. *)
Theorem C246_modes_refuted : exists z z' n n', (0 < n)%nat /\ (0 < n')%nat
  /\ displacement 0 (block [n; n'] 0 (boson_psi [z; z'] [n; n']))
     <> displacement 0 (boson_psi [z] [n]).
Proof.
  exists 1, 1, 2%nat, 2%nat. split; [lia|split; [lia|]].
  rewrite two_modes, one_mode by lia. lra.
Qed.
Print Assumptions C246_modes_refuted.

(** Instance: two modes of different sizes. *)
Example C246_ex : length [1; 2] = length [2; 3]%nat /\ Exists (fun n => 0 < n)%nat [2; 3]%nat
  /\ length (boson_psi [1; 2] [2; 3]%nat) = 5%nat /\ displacement 0 (boson_psi [1] [2%nat]) = 1.
Proof. repeat split; [repeat constructor|exact one_mode]. Qed.

(** C247: a run starts the bosonic trial of a closed shell at the
    displacement of lowest energy.  It does so exactly when the expectation
    value of the coupling vanishes. *)
Theorem C247_lowest_partial : forall d w geb G, 0 < w ->
  ((forall z, mode_energy w (expectation d geb G G) (zalpha d geb G)
              <= mode_energy w (expectation d geb G G) z)
   <-> expectation d geb G G = 0).
Proof.
  intros d w geb G hw. rewrite zalpha_closed. set (a := zalpha d geb G). split.
  - intros h. specialize (h 0). unfold mode_energy in h.
    assert (0 <= w * (a * a)) by (apply Rmult_le_pos; [lra|apply Rle_0_sqr]).
    assert (0 <= a * a) by apply Rle_0_sqr.
    assert (a * a = 0) by lra. apply Rmult_integral in H1. lra.
  - intros h z. unfold mode_energy. assert (e : a = 0) by lra. rewrite e.
    assert (0 <= w * (z * z)) by (apply Rmult_le_pos; [lra|apply Rle_0_sqr]). lra.
Qed.
Print Assumptions C247_lowest_partial.

(** Otherwise its energy is above the one of the vacuum. *)
Theorem C247_vacuum_partial : forall d w geb G, 0 <= w -> expectation d geb G G <> 0 ->
  mode_energy w (expectation d geb G G) 0 < mode_energy w (expectation d geb G G) (zalpha d geb G).
Proof.
  intros d w geb G hw. rewrite zalpha_closed. set (a := zalpha d geb G). intros h.
  unfold mode_energy.
  assert (0 <= w * (a * a)) by (apply Rmult_le_pos; [lra|apply Rle_0_sqr]).
  assert (ha : a <> 0) by (intros e; apply h; rewrite e; ring).
  assert (0 < a * a) by (apply Rsqr_pos_lt; assumption). lra.
Qed.
Print Assumptions C247_vacuum_partial.

Theorem C247_refuted : exists d w geb G, 0 < w
  /\ exists z, mode_energy w (expectation d geb G G) z
               < mode_energy w (expectation d geb G G) (zalpha d geb G).
Proof.
  exists 1%nat, 1, (fun _ _ => 1), (fun _ _ => 1). split; [lra|]. exists 0.
  apply C247_vacuum_partial; [lra|]. unfold expectation; simpl. lra.
Qed.
Print Assumptions C247_refuted.

(** The lowest energy is at minus the coupling over the frequency. *)
Example C247_ex : (forall w g z, 0 < w -> mode_energy w g (- g / w) <= mode_energy w g z)
  /\ mode_energy 1 (expectation 1 (fun _ _ => 1) (fun _ _ => 1) (fun _ _ => 1)) (-2) = -4
  /\ mode_energy 1 (expectation 1 (fun _ _ => 1) (fun _ _ => 1) (fun _ _ => 1))
       (zalpha 1 (fun _ _ => 1) (fun _ _ => 1)) = 5.
Proof.
  split; [exact best_mode|].
  split; unfold mode_energy, expectation, zalpha; simpl; ring.
Qed.
