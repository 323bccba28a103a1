(** Properties of the coupled-cluster code: C57, C58, C75-C77, C146-C148. *)
From Coq Require Import Bool.
From Verif Require Import Base CcModel CcSpec CcProofs.
Local Open Scope nat_scope.

(** C57.  For every number of modes and every order. *)
Theorem C57_pure_photon : forall w nfock, 0 < nfock -> exists ds, getDsn w nfock = Ok (Some ds) /\ length ds = nfock /\
  forall k, k < nfock -> shape (nth k ds (Tensor [] (fun _ => 0%Q))) = repeat (length w) (S k) /\
    forall ps, length ps = S k -> below (length w) ps ->
      (at_ (nth k ds (Tensor [] (fun _ => 0%Q))) ps == - photon_energy w ps)%Q.
Proof. exact dsn_ok. Qed.
Print Assumptions C57_pure_photon.
Example C57_ex : exists ds, getDsn [1; 3]%Q 2 = Ok (Some ds) /\ (at_ (nth 1 ds (Tensor [] (fun _ => 0%Q))) [0; 1]%nat == -4)%Q.
Proof. eexists. split; reflexivity. Qed.

(** C75.  With one mode the mixed denominators are right at every order. *)
Theorem C75_singles_partial : forall eo ev w0 nfock, 0 < nfock ->
  exists ds, getD1p eo ev [w0] nfock = Ok (Some ds) /\ length ds = nfock /\
  forall k, k < nfock -> shape (nth k ds (Tensor [] (fun _ => 0%Q))) = repeat 1 (S k) ++ [length ev; length eo] /\
    forall ps a i, length ps = S k -> below 1 ps -> a < length ev -> i < length eo ->
      (at_ (nth k ds (Tensor [] (fun _ => 0%Q))) (ps ++ [a; i]) == nth i eo 0 - nth a ev 0 - photon_energy [w0] ps)%Q.
Proof. exact d1p_one. Qed.
Print Assumptions C75_singles_partial.
Theorem C75_doubles_partial : forall eo ev w0 nfock, 0 < nfock ->
  exists ds, getD2p eo ev [w0] nfock = Ok (Some ds) /\ length ds = nfock /\
  forall k, k < nfock ->
    shape (nth k ds (Tensor [] (fun _ => 0%Q))) = repeat 1 (S k) ++ [length ev; length ev; length eo; length eo] /\
    forall ps a b i j, length ps = S k -> below 1 ps -> a < length ev -> b < length ev -> i < length eo -> j < length eo ->
      (at_ (nth k ds (Tensor [] (fun _ => 0%Q))) (ps ++ [a; b; i; j])
         == nth i eo 0 + nth j eo 0 - nth a ev 0 - nth b ev 0 - photon_energy [w0] ps)%Q.
Proof. exact d2p_one. Qed.
Print Assumptions C75_doubles_partial.
Example C75_ex : exists ds, getD1p [-1]%Q [2]%Q [3]%Q 2 = Ok (Some ds) /\
  (at_ (nth 1 ds (Tensor [] (fun _ => 0%Q))) [0; 0; 0; 0]%nat == -9)%Q.
Proof. eexists. split; reflexivity. Qed.
(** With several modes the second order does not exist, unless there are as
    many modes as occupied orbitals (or one occupied orbital); *)
Theorem C75_singles_refuted : forall eo ev w nfock, 2 <= length w -> 2 <= nfock -> length eo <> length w -> length eo <> 1 ->
  getD1p eo ev w nfock = Err ValueError.
Proof. exact d1p_raises. Qed.
Print Assumptions C75_singles_refuted.
Theorem C75_doubles_refuted : forall eo ev w nfock, 2 <= length w -> 2 <= nfock -> length eo <> length w -> length eo <> 1 ->
  getD2p eo ev w nfock = Err ValueError.
Proof. exact d2p_raises. Qed.
Print Assumptions C75_doubles_refuted.
(** then the energy of the second photon is taken at the orbital index. *)
Theorem C75_orbital_index : forall eo ev w, 2 <= length w -> length eo = length w -> 2 <= length ev ->
  exists t, getD1p eo ev w 2 = Ok (Some [D1p0 eo ev w; t]) /\ shape t = [1; length w; length ev; length eo] /\
    forall p q a i, (at_ t [p; q; a; i] == nth i eo 0 - nth a ev 0 - nth q w 0 - nth i w 0)%Q.
Proof. exact d1p_wrong. Qed.
Print Assumptions C75_orbital_index.
Theorem C75_value_refuted : exists eo ev w ds p q a i, getD1p eo ev w 2 = Ok (Some ds) /\
  p < length w /\ q < length w /\ a < length ev /\ i < length eo /\
  ~ (at_ (nth 1 ds (Tensor [] (fun _ => 0%Q))) [p; q; a; i] == nth i eo 0 - nth a ev 0 - photon_energy w [p; q])%Q.
Proof. exact d1p_wrong_value. Qed.
Print Assumptions C75_value_refuted.

(** C58. *)
Theorem C58_round_trip : forall u a, pair_symmetric a -> exists b, vector2amplitudes u (amplitudes2vector u a) a = Ok b /\
  nr b = nr a /\ nc b = nc a /\
  (forall x i, x < nr a -> i < nc a -> t1 b x i = t1 a x i) /\
  (forall x y i j, x < nr a -> y < nr a -> i < nc a -> j < nc a -> t2 b x y i j = t2 a x y i j) /\
  sn b = sn a /\ u1n b = u1n a /\ u2n b = u2n a.
Proof. exact round_trip. Qed.
Print Assumptions C58_round_trip.
(** The vector itself holds every photonic amplitude in order. *)
Theorem C58_vector : forall u a,
  length (amplitudes2vector u a) = nov a + tri (nov a) + length (flat (sn a)) + length (flat (u1n a))
    + (if u then length (flat (u2n a)) else 0) /\
  cut (map (@length Q) (photonic u a)) (skipn (nov a + tri (nov a)) (amplitudes2vector u a)) = photonic u a.
Proof. exact (fun u a => conj (vec_length u a) (photon_part u a)). Qed.
Print Assumptions C58_vector.
Example C58_ex : amplitudes2vector false
  (Amps 1 2 (fun _ i => inject_Z (Z.of_nat i)) (fun _ _ i j => inject_Z (Z.of_nat (5 + i + j))) (Some [[8]]) None None)%Q
  = [0; 1; 5; 6; 7; 8]%Q.
Proof. reflexivity. Qed.

(** C76.  The electronic amplitudes are read from the extrapolated vector; *)
Theorem C76_singles_partial : forall u v a b, vector2amplitudes u v a = Ok b ->
  (forall x i, t1 b x i = nth (x * nc a + i) v 0%Q) /\ sn b = sn a /\ u1n b = u1n a /\ u2n b = u2n a.
Proof. exact extrapolated. Qed.
Print Assumptions C76_singles_partial.
Theorem C76_doubles_partial : forall u v a b x y i j, vector2amplitudes u v a = Ok b ->
  x < nr a -> y < nr a -> i < nc a -> j < nc a ->
  t2 b x y i j = nth (nov a + (tri (Nat.max (x * nc a + i) (y * nc a + j)) + Nat.min (x * nc a + i) (y * nc a + j))) v 0%Q.
Proof. exact extrapolated_t2. Qed.
Print Assumptions C76_doubles_partial.
(** Extrapolation happens from the start iteration on, once the energy change
    is small enough, and otherwise nothing changes. *)
Theorem C76_applied : forall u a istep start de sde f, start <= istep -> (qabs de < sde)%Q ->
  run_diis u a istep start de sde (Some f) = vector2amplitudes u (f (amplitudes2vector u a)) a.
Proof. exact diis_applied. Qed.
Print Assumptions C76_applied.
Theorem C76_skipped : forall u a istep start de sde up, up = None \/ istep < start \/ (sde <= qabs de)%Q ->
  run_diis u a istep start de sde up = Ok a.
Proof. exact diis_skipped. Qed.
Print Assumptions C76_skipped.
(** the photonic ones keep their old values. *)
Theorem C76_photonic_refuted : exists u v a b, vector2amplitudes u v a = Ok b /\
  photonic u b <> cut (map (@length Q) (photonic u a)) (skipn (nov a + tri (nov a)) v).
Proof. exact stale. Qed.
Print Assumptions C76_photonic_refuted.

(** C77.  No run returns amplitudes; *)
Theorem C77_amplitudes_refuted : forall A c E resid (amp : nat -> A) ret r, ccsd_nfock c E resid amp ret = Ok r ->
  e_total r = (ehf c + e_corr r)%Q /\ returned r = None /\ attr_converged r = false.
Proof. exact @no_photon_energy. Qed.
Print Assumptions C77_amplitudes_refuted.
(** with photons every run raises, *)
Theorem C77_photons_refuted : forall A c E resid (amp : nat -> A) ret, 0 < nfock1 c -> 0 < nfock2 c -> 0 < max_cycle c ->
  ccsd_nfock c E resid amp ret = Err NameError.
Proof. exact @photons_raise. Qed.
Print Assumptions C77_photons_refuted.
(** without them it raises unless nfock2 is zero as well. *)
Theorem C77_electronic_refuted : forall A c E resid (amp : nat -> A) ret, nfock1 c = 0 -> 0 < nfock2 c ->
  ccsd_nfock c E resid amp ret = Err TypeError.
Proof. exact @default_electronic. Qed.
Print Assumptions C77_electronic_refuted.
Theorem C77_energy_partial : forall A c E resid (amp : nat -> A) ret, nfock1 c = 0 -> nfock2 c = 0 ->
  exists r, ccsd_nfock c E resid amp ret = Ok r /\
    e_corr r = snd (cc_loop E resid (eth c) (tth c) (max_cycle c) 0 0%Q).
Proof. exact @electronic_ok. Qed.
Print Assumptions C77_energy_partial.

(** C146.  The iteration stops at the first cycle that meets both thresholds
    and runs at most max_cycle cycles. *)
Theorem C146_stops : forall E resid et tt max eold,
  let '(n, conv, e) := cc_loop E resid et tt max 0 eold in
  0 <= n <= 0 + max /\
  let prev k := if k =? 0 then eold else E (k - 1) in
  (forall k, 0 <= k -> S k < n -> meets E resid et tt k (prev k) = false) /\
  (conv = true -> 0 < n /\ meets E resid et tt (n - 1) (prev (n - 1)) = true) /\
  (conv = false -> n = 0 + max /\ forall k, 0 <= k < n -> meets E resid et tt k (prev k) = false) /\
  e = (if n =? 0 then eold else E (n - 1)).
Proof. exact (fun E resid et tt max => cc_loop_spec E resid et tt max 0). Qed.
Print Assumptions C146_stops.
Example C146_ex : cc_loop (fun k => inject_Z (Z.of_nat (Nat.min k 3))) (fun _ => 0%Q) (1#2) (1#2) 10 0 (-(1)) = (5, true, 3%Q).
Proof. reflexivity. Qed.

(** C147.  A converged run is not recorded in the object. *)
Theorem C147_attribute_refuted : exists c E resid (amp : nat -> unit) r, ccsd_nfock c E resid amp false = Ok r /\
  snd (fst (cc_loop E resid (eth c) (tth c) (max_cycle c) 0 0%Q)) = true /\ attr_converged r = false.
Proof. exact converged_attr. Qed.
Print Assumptions C147_attribute_refuted.

(** C148.  Mixing keeps a fixed point and stays between old and new, but is not
    monotone in the damping: damp = 1 means no damping. *)
Theorem C148_fixed_partial : forall d x, (mix d x x == x)%Q.
Proof. exact mix_same. Qed.
Print Assumptions C148_fixed_partial.
Theorem C148_between_partial : forall d x y, (0 <= d)%Q -> (x <= y)%Q -> (x <= mix d x y <= y)%Q.
Proof. exact mix_between. Qed.
Print Assumptions C148_between_partial.
(** below 1 the step is (1 - damp) times the undamped one; from 1 on there is
    no damping *)
Theorem C148_step : forall d x y, (d < 1)%Q -> (mix d x y - x == (1 - d) * (y - x))%Q.
Proof. exact mix_step_size. Qed.
Print Assumptions C148_step.
Theorem C148_undamped : forall d x y, (1 <= d)%Q -> mix d x y = y.
Proof. exact mix_undamped. Qed.
Print Assumptions C148_undamped.
Theorem C148_monotone_refuted : exists d d' x y, (d <= d')%Q /\ (x < y)%Q /\ (mix d x y < mix d' x y)%Q.
Proof. exact mix_not_monotone. Qed.
Print Assumptions C148_monotone_refuted.
Example C148_ex : (mix (2#5) 0 1 == 3#5)%Q.
Proof. reflexivity. Qed.
