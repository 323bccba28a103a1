(** Theorems about the compiled dressing factors. *)
From Coq Require Import Reals Lra Lia.
From Verif Require Import Base BosonModel BosonSpec DispModel DispSpec DispProofs.
Open Scope R_scope.

(** C191.  The compiled displacement matrix of a mode and its contraction with
    the entries of the density matrix: for every number of photon states,
    whatever the new array held, element (i, j) is
    2 sqrt(j!/i!) (-A)^(i-j) L_j^(i-j)(A^2) exp(-A^2/2) below the diagonal and
    L_i(A^2) exp(-A^2/2) on it. *)
Theorem C191_elements : forall nboson imode nao freq eta pdm vsq shift junk p q mdim,
  nth_error nboson imode = Some mdim ->
  let A := exp (vsq imode) / freq imode * (eta (imode * nao + p)%nat - eta (imode * nao + q)%nat + shift) in
  let D i j := (if (i =? j)%nat then genlaguerre i 0 (A ^ 2)
    else 2 * sqrt (INR (fact j) / INR (fact i)) * (- A) ^ (i - j) * genlaguerre j (i - j) (A ^ 2)) * exp (- (1/2) * A ^ 2) in
  exists d e, cpp_displacement nboson imode nao freq eta pdm vsq shift junk p q = Ok (d, e) /\
    (forall i j, (j <= i < mdim)%nat -> d (i * (i + 1) / 2 + j)%nat = D i j) /\
    e = sum_below mdim (fun i => sum_below (S i) (fun j => pdm (i * (i + 1) / 2 + j)%nat * D i j)).
Proof. exact disp_ok. Qed.
Print Assumptions C191_elements.

(** Handed a packed density matrix it returns the Python routine's value. *)
Theorem C191_packed_partial : forall nboson imode nao freq eta pdm vsq shift junk p q mdim m,
  nth_error nboson imode = Some mdim -> packed mdim m pdm ->
  let A := exp (vsq imode) / freq imode * (eta (imode * nao + p)%nat - eta (imode * nao + q)%nat + shift) in
  exists d, cpp_displacement nboson imode nao freq eta pdm vsq shift junk p q = Ok (d, displacement_exp_val mdim A m true).
Proof. exact packed_ok. Qed.
Print Assumptions C191_packed_partial.

(** Handed the density matrix itself, as the Python routine is, it reads the
    wrong entries: one photon in a two-state space and no displacement give 0
    instead of 1. *)
Theorem C191_square_refuted : exists nboson freq eta vsq m, forall junk, exists d e,
  (forall i j, m i j = m j i) /\ sum_below 2 (fun i => m i i) = 1 /\
  cpp_displacement nboson 0 1 freq eta (row_major 2 m) vsq 0 junk 0 0 = Ok (d, e) /\ e = 0 /\
  displacement_matrix 2 (exp (vsq 0%nat) / freq 0%nat * (eta 0%nat - eta 0%nat + 0)) m true = Ok 1.
Proof. exact square_bad. Qed.
Print Assumptions C191_square_refuted.
Theorem C191_mode : forall nboson imode nao freq eta pdm vsq shift junk p q, (List.length nboson <= imode)%nat ->
  cpp_displacement nboson imode nao freq eta pdm vsq shift junk p q = Err IndexError.
Proof. exact disp_badmode. Qed.
Print Assumptions C191_mode.
Example C191_ex : packed 2 (fun i j => INR (i + 3 * j)) (fun k => match k with O => 0 | S O => 1 | _ => 4 end).
Proof. intros i j H. assert ((i = 0 /\ j = 0) \/ (i = 1 /\ j = 0) \/ (i = 1 /\ j = 1))%nat as [[-> ->]|[[-> ->]|[-> ->]]] by lia; cbn; lra. Qed.

(** C192.  The compiled Gaussian factors: element (p, q, r, s) of the table is
    exp(-((eta_p - eta_q + eta_r - eta_s)/w)^2/2) unless eta_r or eta_s is -1. *)
Theorem C192_table_partial : forall N freq eta p q r s, (q < N)%nat -> (r < N)%nat -> (s < N)%nat -> eta r <> -1 -> eta s <> -1 ->
  gaussian_table N freq eta (p * N * N * N + q * N * N + r * N + s) = exp (- (1/2) * ((eta p - eta q + eta r - eta s) / freq) ^ 2).
Proof. exact table_ok. Qed.
Print Assumptions C192_table_partial.
(** -1 is the mark of an argument that was left out, so a displacement of -1 is
    mistaken for it. *)
Theorem C192_mark_refuted : exists freq ep eq er es, 0 < freq /\ gaussian_factor freq ep eq er es = 1 /\
  exp (- (1/2) * ((ep - eq + er - es) / freq) ^ 2) <> 1.
Proof. exact gaussian_bad. Qed.
Print Assumptions C192_mark_refuted.
Example C192_ex : gaussian_table 2 1 (fun i => INR i) (0 * 2 * 2 * 2 + 1 * 2 * 2 + 0 * 2 + 1) = exp (- (2)).
Proof. rewrite table_ok by (try lia; cbn; lra). f_equal. cbn. lra. Qed.
