(** Properties of the electron-boson FCI operators. *)
From mathcomp Require Import all_ssreflect all_algebra.
From Verif Require Import FciModel FciSpec FciProofs.
From Verif Require Base.
Set Implicit Arguments.
Unset Strict Implicit.
Unset Printing Implicit Defensive.
Import GRing.Theory Num.Theory.
Local Open Scope ring_scope.

(** * C54: ladder operators *)
Theorem C54_adjoint : forall (R : rcfType) (na nbt m D : nat) (nb : 'I_m -> nat), (forall k, nb k <= D)%N ->
  forall (u v : civec R na nbt m D) k,
  dot nb u (cre_boson nb v k) = dot nb (des_boson nb u k) v.
Proof. exact dot_cre. Qed.
Print Assumptions C54_adjoint.

Theorem C54_commutator : forall (R : rcfType) (na nbt m D : nat) (nb : 'I_m -> nat), (forall k, nb k <= D)%N ->
  forall (v : civec R na nbt m D) k s t c, inside nb c -> (c k < nb k)%N ->
  des_boson nb (cre_boson nb v k) k s t c - cre_boson nb (des_boson nb v k) k s t c = v s t c.
Proof. exact commutator. Qed.
Print Assumptions C54_commutator.

(** at the cutoff the truncation shows *)
Theorem C54_cutoff : forall (R : rcfType) (na nbt m D : nat) (nb : 'I_m -> nat), (forall k, nb k <= D)%N ->
  forall (v : civec R na nbt m D) k s t c, inside nb c -> c k = nb k :> nat ->
  des_boson nb (cre_boson nb v k) k s t c - cre_boson nb (des_boson nb v k) k s t c = - (nb k)%:R * v s t c.
Proof. exact commutator_cutoff. Qed.
Print Assumptions C54_cutoff.

Theorem C54_number : forall (R : rcfType) (na nbt m D : nat) (nb : 'I_m -> nat), (forall k, nb k <= D)%N ->
  forall (v : civec R na nbt m D) k s t c, inside nb c ->
  cre_boson nb (des_boson nb v k) k s t c = (c k)%:R * v s t c.
Proof. exact number. Qed.
Print Assumptions C54_number.

Theorem C54_other_modes : forall (R : rcfType) (na nbt m D : nat) (nb : 'I_m -> nat)
   (v : civec R na nbt m D) k j s t c, k != j -> inside nb c ->
  des_boson nb (cre_boson nb v k) j s t c = cre_boson nb (des_boson nb v j) k s t c.
Proof. exact other_mode. Qed.
Print Assumptions C54_other_modes.

Theorem C54_creations_commute : forall (R : rcfType) (na nbt m D : nat) (nb : 'I_m -> nat)
   (v : civec R na nbt m D) k j s t c, inside nb c ->
  cre_boson nb (cre_boson nb v k) j s t c = cre_boson nb (cre_boson nb v j) k s t c.
Proof. exact other_cre. Qed.
Print Assumptions C54_creations_commute.

(** a two-mode configuration below the first cutoff and at the second *)
Example C54_ex : let nb := fun k : 'I_2 => (k.+1)%N in
  let c : cfg 2 2 := [ffun k => if k == ord0 then inord 0 else inord 2] in
  inside nb c /\ (c ord0 < nb ord0)%N /\ c ord_max = nb ord_max :> nat.
Proof.
split; last by rewrite !ffunE /= !inordK.
apply/forallP => k; rewrite ffunE; case: eqP => [->|]; rewrite inordK //.
by case: k => [[|[|//]] h e] //; case: e; apply: val_inj.
Qed.

(** * C55: bosonic energy *)
Theorem C55_vector_partial : forall (R : rcfType) (na nbt m D : nat) (nb : 'I_m -> nat)
  (w : 'I_m -> R) (v : civec R na nbt m D) s t c, inside nb c ->
  contract_bb nb w v s t c = (\sum_k w k * (c k)%:R) * v s t c.
Proof. exact bb_ok. Qed.
Print Assumptions C55_vector_partial.

Theorem C55_one_mode_partial : forall (R : rcfType) (na nbt D norb : nat) (nb : 'I_1 -> nat)
   (taba : 'I_na -> seq (link norb na)) (tabb : 'I_nbt -> seq (link norb nbt)) h1e eri nelec Heb w (v : civec R na nbt 1 D),
  (forall k, nb k <= D)%N ->
  exists2 u, kernel_hop nb taba tabb h1e eri nelec Heb w v = Base.Ok u &
    forall s t c, u s t c = hop nb taba tabb h1e eri nelec Heb w v s t c.
Proof. exact kernel_one_mode. Qed.
Print Assumptions C55_one_mode_partial.

(** two modes, every common cutoff other than one: the kernel stops *)
Theorem C55_two_modes_refuted : forall (R : rcfType) (na nbt D norb n : nat)
   (taba : 'I_na -> seq (link norb na)) (tabb : 'I_nbt -> seq (link norb nbt)) h1e eri nelec Heb w (v : civec R na nbt 2 D),
  n != 0%N -> n != 1%N ->
  kernel_hop (fun _ => n) taba tabb h1e eri nelec Heb w v = Base.Err Base.ValueError.
Proof. exact kernel_two_modes. Qed.
Print Assumptions C55_two_modes_refuted.

(** ... and at cutoff one the energy of the first mode is lost *)
Theorem C55_value_refuted : forall (R : rcfType) (na nbt : nat) (w : 'I_2 -> R) (v : civec R na nbt 2 1),
  exists2 u, contract_bb_matrix (fun _ => 1%N) (\matrix_(k, l) if k == l then w k else 0) v = Base.Ok u &
    forall s t (c : cfg 2 1), (forall k, c k = 1%N :> nat) -> u s t c = w ord_max * v s t c.
Proof. exact bb_two_modes. Qed.
Print Assumptions C55_value_refuted.

(** * C56: absorbing the one-electron term *)
Theorem C56_absorb : forall (R : rcfType) (norb na nbt m D : nat)
   (taba : 'I_na -> seq (link norb na)) (tabb : 'I_nbt -> seq (link norb nbt)) (Na Nb : nat),
  number_table R taba Na -> number_table R tabb Nb ->
  forall h eri (v : civec R na nbt m D) s t c, (0 < Na + Nb)%N ->
  contract_2e taba tabb (absorb_h1e h eri (Na + Nb) (1 / 2%:R)) v s t c =
  one_body taba tabb h v s t c + two_body taba tabb eri v s t c.
Proof. exact absorb_ok. Qed.
Print Assumptions C56_absorb.

(** the electron-boson term is sum_k (b_k^+ + b_k) sum_pq Heb_k,pq E_pq *)
Theorem C56_coupling : forall (R : rcfType) (norb na nbt m D : nat) (nb : 'I_m -> nat)
   (taba : 'I_na -> seq (link norb na)) (tabb : 'I_nbt -> seq (link norb nbt)) Heb (v : civec R na nbt m D) s t c,
  contract_eb nb taba tabb Heb v s t c =
  \sum_k (cre_boson nb (one_body taba tabb (Heb k) v) k s t c + des_boson nb (one_body taba tabb (Heb k) v) k s t c).
Proof. exact eb_ok. Qed.
Print Assumptions C56_coupling.

(** the tables of one electron in any number of orbitals satisfy the hypotheses *)
Example C56_ex (R : rcfType) norb : adjoint_table R (@tab1 norb) /\ number_table R (@tab1 norb) 1.
Proof. by split; [apply: adjoint_tab1 | apply: number_tab1]. Qed.

(** * C149: the Hamiltonian is symmetric *)
Theorem C149_hop : forall (R : rcfType) (norb na nbt m D : nat) (nb : 'I_m -> nat)
   (taba : 'I_na -> seq (link norb na)) (tabb : 'I_nbt -> seq (link norb nbt)),
  adjoint_table R taba -> adjoint_table R tabb -> (forall k, nb k <= D)%N ->
  forall h eri N Heb w (u v : civec R na nbt m D),
  (forall p q, h p q = h q p) -> eri_symmetric eri -> (forall k p q, Heb k p q = Heb k q p) ->
  dot nb u (hop nb taba tabb h eri N Heb w v) = dot nb (hop nb taba tabb h eri N Heb w u) v.
Proof. exact hop_symmetric. Qed.
Print Assumptions C149_hop.

(** * C150: one-particle density matrix *)
Theorem C150_expectation : forall (R : rcfType) (norb na nbt m D : nat) (nb : 'I_m -> nat)
   (taba : 'I_na -> seq (link norb na)) (tabb : 'I_nbt -> seq (link norb nbt)) (v : civec R na nbt m D) a i,
  make_rdm1e nb taba tabb v a i = dot nb v (Eop taba tabb a i v).
Proof. exact rdm_ok. Qed.
Print Assumptions C150_expectation.

Theorem C150_symmetric : forall (R : rcfType) (norb na nbt m D : nat) (nb : 'I_m -> nat)
   (taba : 'I_na -> seq (link norb na)) (tabb : 'I_nbt -> seq (link norb nbt)) (v : civec R na nbt m D) a i,
  adjoint_table R taba -> adjoint_table R tabb ->
  make_rdm1e nb taba tabb v a i = make_rdm1e nb taba tabb v i a.
Proof. exact rdm_symmetric. Qed.
Print Assumptions C150_symmetric.

Theorem C150_trace : forall (R : rcfType) (norb na nbt m D : nat) (nb : 'I_m -> nat)
   (taba : 'I_na -> seq (link norb na)) (tabb : 'I_nbt -> seq (link norb nbt)) (v : civec R na nbt m D) Na Nb,
  number_table R taba Na -> number_table R tabb Nb ->
  \sum_a make_rdm1e nb taba tabb v a a = (Na + Nb)%:R * dot nb v v.
Proof. exact rdm_trace. Qed.
Print Assumptions C150_trace.

Theorem C150_energy : forall (R : rcfType) (norb na nbt m D : nat) (nb : 'I_m -> nat)
   (taba : 'I_na -> seq (link norb na)) (tabb : 'I_nbt -> seq (link norb nbt)) (v : civec R na nbt m D) h,
  \sum_a \sum_i h a i * make_rdm1e nb taba tabb v a i = dot nb v (one_body taba tabb h v).
Proof. exact rdm_energy. Qed.
Print Assumptions C150_energy.

(** * C151: one- and two-particle density matrices from make_rdm12e *)
Theorem C151_rdm1 : forall (R : rcfType) (norb na nbt m D : nat) (nb : 'I_m -> nat)
   (taba : 'I_na -> seq (link norb na)) (tabb : 'I_nbt -> seq (link norb nbt)) (v : civec R na nbt m D) i j,
  adjoint_table R taba -> adjoint_table R tabb ->
  rdm1_12 nb taba tabb v i j = make_rdm1e nb taba tabb v i j.
Proof. exact rdm1_12_ok. Qed.
Print Assumptions C151_rdm1.

Theorem C151_rdm2 : forall (R : rcfType) (norb na nbt m D : nat) (nb : 'I_m -> nat)
   (taba : 'I_na -> seq (link norb na)) (tabb : 'I_nbt -> seq (link norb nbt)) (v : civec R na nbt m D) p q r x,
  adjoint_table R taba -> adjoint_table R tabb ->
  rdm2_cut nb taba tabb v p q r x =
  dot nb v (fun s t c => Eop taba tabb p q (Eop taba tabb r x v) s t c - (if q == r then Eop taba tabb p x v s t c else 0)).
Proof. exact rdm2_cut_ok. Qed.
Print Assumptions C151_rdm2.

Theorem C151_energy : forall (R : rcfType) (norb na nbt m D : nat) (nb : 'I_m -> nat)
   (taba : 'I_na -> seq (link norb na)) (tabb : 'I_nbt -> seq (link norb nbt)) (v : civec R na nbt m D) eri,
  adjoint_table R taba -> adjoint_table R tabb -> (forall p q r x, eri p q r x = eri r x p q) ->
  (\sum_p \sum_q \sum_r \sum_x eri p q r x * rdm2_12 nb taba tabb v p q r x) / 2%:R =
  dot nb v (two_body taba tabb eri v).
Proof. exact rdm2_energy. Qed.
Print Assumptions C151_energy.

(** * C152: options of the kernel *)
Theorem C152_plain_partial : forall na nb nmode l, nmode = size l -> (0 < nmode)%N ->
  kernel_start na nb nmode (Some (BList l)) false false =
  Base.Ok (Solve (na :: nb :: [seq BinInt.Z.succ x | x <- l])).
Proof. exact kernel_plain. Qed.
Print Assumptions C152_plain_partial.
Example C152_ex : (2%N = size [:: BinNums.Z0; BinNums.Z0]) /\ (0 < 2)%N.
Proof. by []. Qed.

Theorem C152_coherent_refuted : forall na nb nmode b, kernel_start na nb nmode b false true = Base.Err Base.NameError.
Proof. exact kernel_coherent. Qed.
Print Assumptions C152_coherent_refuted.

Theorem C152_int_refuted : forall na nb nmode n, (0 < nmode)%N ->
  (exists sh, ci_shape na nb nmode (Some (BInt n)) = Base.Ok sh) /\
  kernel_start na nb nmode (Some (BInt n)) false false = Base.Err Base.TypeError.
Proof. exact kernel_int. Qed.
Print Assumptions C152_int_refuted.

(** * C153: the diagonal used by the Davidson preconditioner *)
Theorem C153_high_partial : forall (R : rcfType) (m D : nat) (w : 'I_m -> R) (c : cfg m D),
  (forall k, 1 / 2%:R <= (c k)%:R * w k) -> hdiag_boson w c = boson_energy w c.
Proof. exact hdiag_high. Qed.
Print Assumptions C153_high_partial.

Theorem C153_vacuum_refuted : forall (R : rcfType) (m D : nat) (w : 'I_m -> R) (c : cfg m D),
  (forall k, c k = 0%N :> nat) -> boson_energy w c = 0 /\ hdiag_boson w c = m%:R / 2%:R.
Proof. exact hdiag_vacuum. Qed.
Print Assumptions C153_vacuum_refuted.
