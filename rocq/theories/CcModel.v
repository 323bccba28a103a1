(** Model of openms/mqed/ccsd.py: denominators, amplitude vector and driver.
    The module imports epcc_equations (27), which is not in the package, so the
    import itself fails; the functions are modelled as if it succeeded. *)
From Coq Require Import Bool.
From Verif Require Import Base.
Local Open Scope nat_scope.

(** * Arrays with numpy broadcasting (operands of equal rank) *)
Record tensor := Tensor { shape : list nat; at_ : list nat -> Q }.
Definition bdim (a b : nat) : option nat :=
  if Nat.eqb a b then Some a else if Nat.eqb a 1 then Some b else if Nat.eqb b 1 then Some a else None.
Fixpoint bdims (a b : list nat) : option (list nat) :=
  match a, b with
  | [], [] => Some []
  | x :: a', y :: b' =>
      match bdim x y, bdims a' b' with Some d, Some r => Some (d :: r) | _, _ => None end
  | _, _ => None
  end.
(** an axis of length one is read at index 0 *)
Fixpoint bidx (sh idx : list nat) : list nat :=
  match sh, idx with d :: sh', i :: idx' => (if Nat.eqb d 1 then 0 else i) :: bidx sh' idx' | _, _ => [] end.
Definition tsub (a b : tensor) : res tensor :=
  match bdims (shape a) (shape b) with
  | Some sh => Ok (Tensor sh (fun idx => at_ a (bidx (shape a) idx) - at_ b (bidx (shape b) idx))%Q)
  | None => Err ValueError
  end.
(** x[..., None] *)
Definition new_last (t : tensor) : tensor := Tensor (shape t ++ [1]) (fun idx => at_ t (removelast idx)).
(** x[None, ...] *)
Definition new_first (t : tensor) : tensor := Tensor (1 :: shape t) (fun idx => at_ t (tl idx)).
(** numpy.expand_dims(w, axis=tuple(range(k))) of a vector *)
Definition expand_front (w : list Q) (k : nat) : tensor :=
  Tensor (repeat 1 k ++ [length w]) (fun idx => nth (last idx 0) w 0%Q).

(** the loops [for i in range(1, nfock)] *)
Fixpoint chain (f : nat -> tensor -> res tensor) (i n : nat) (prev : tensor) : res (list tensor) :=
  match n with
  | O => Ok []
  | S n' => rbind (f i prev) (fun t => rbind (chain f (S i) n' t) (fun r => Ok (t :: r)))
  end.
Definition order_loop (f : nat -> tensor -> res tensor) (t0 : tensor) (nfock : nat) : res (option (list tensor)) :=
  match nfock with
  | O => Ok None
  | S n => rmap (fun r => Some (t0 :: r)) (chain f 1 n t0)
  end.

(** getDsn, 54-64 *)
Definition getDsn (w : list Q) (nfock : nat) : res (option (list tensor)) :=
  order_loop (fun i prev => tsub (new_last prev) (expand_front w i))
    (Tensor [length w] (fun idx => - nth (nth 0 idx 0%nat) w 0)%Q) nfock.

(** getD1p, 66-77 *)
Definition D1p0 (eo ev w : list Q) : tensor :=
  Tensor [length w; length ev; length eo]
    (fun x => nth (nth 2 x 0%nat) eo 0 - nth (nth 1 x 0%nat) ev 0 - nth (nth 0 x 0%nat) w 0)%Q.
Definition getD1p (eo ev w : list Q) (nfock : nat) : res (option (list tensor)) :=
  order_loop (fun i prev => tsub (new_first prev) (expand_front w (i + 2))) (D1p0 eo ev w) nfock.

(** getD2p, 79-93 *)
Definition D2p0 (eo ev w : list Q) : tensor :=
  Tensor [length w; length ev; length ev; length eo; length eo]
    (fun x => - nth (nth 1 x 0%nat) ev 0 - nth (nth 2 x 0%nat) ev 0 + nth (nth 3 x 0%nat) eo 0
              + nth (nth 4 x 0%nat) eo 0 - nth (nth 0 x 0%nat) w 0)%Q.
Definition getD2p (eo ev w : list Q) (nfock : nat) : res (option (list tensor)) :=
  order_loop (fun i prev => tsub (new_first prev) (expand_front w (i + 4))) (D2p0 eo ev w) nfock.

(** * Amplitude vector *)
(** T1 has shape (nr, nc); T2 is indexed as T2[a, b, i, j] with a, b < nr and
    i, j < nc; the photonic amplitudes are kept as flat arrays (ravel and
    reshape to the old shape are inverse to each other). *)
Record amps := Amps {
  nr : nat; nc : nat; t1 : nat -> nat -> Q; t2 : nat -> nat -> nat -> nat -> Q;
  sn : option (list (list Q)); u1n : option (list (list Q)); u2n : option (list (list Q)) }.
Definition nov (a : amps) : nat := nr a * nc a.
Definition tri (n : nat) : nat := n * (n + 1) / 2.
(** row-major flattening of a matrix *)
Definition ravel (r c : nat) (m : nat -> nat -> Q) : list Q :=
  flat_map (fun i => map (m i) (seq 0 c)) (seq 0 r).
(** pyscf lib.pack_tril / unpack_tril(filltriu=SYMMETRIC): lower triangle by rows *)
Definition pack_tril (n : nat) (m : nat -> nat -> Q) : list Q :=
  flat_map (fun i => map (m i) (seq 0 (S i))) (seq 0 n).
Definition unpack_tril (v : list Q) (i j : nat) : Q := nth (tri (Nat.max i j) + Nat.min i j) v 0%Q.
(** T2.transpose(0,2,1,3).reshape(nov,nov) *)
Definition t2_matrix (a : amps) (p q : nat) : Q := t2 a (p / nc a) (q / nc a) (p mod nc a) (q mod nc a).
Definition flat (x : option (list (list Q))) : list Q := match x with Some l => concat l | None => [] end.

(** amplitudes2vector, 460-494 *)
Definition amplitudes2vector (add_U2n : bool) (a : amps) : list Q :=
  ravel (nr a) (nc a) (t1 a) ++ pack_tril (nov a) (t2_matrix a)
  ++ flat (sn a) ++ flat (u1n a) ++ (if add_U2n then flat (u2n a) else []).

(** vector2amplitudes, 496-521.  The loops [for S in Sn: S = vector[...]]
    rebind the loop variable only.  A vector shorter than the amplitudes makes
    one of the reshapes fail. *)
Definition vector2amplitudes (add_U2n : bool) (v : list Q) (a : amps) : res amps :=
  if length v <? nov a + tri (nov a) + length (flat (sn a)) + length (flat (u1n a))
                + (if add_U2n then length (flat (u2n a)) else 0) then Err ValueError
  else Ok (Amps (nr a) (nc a)
    (fun x i => nth (x * nc a + i) v 0%Q)
    (fun x y i j => unpack_tril (firstn (tri (nov a)) (skipn (nov a) v)) (x * nc a + i) (y * nc a + j))
    (sn a) (u1n a) (u2n a)).

(** run_diis, 523-531; [update] is the extrapolation of the DIIS object, which
    is absent when DIIS is off *)
Definition run_diis (add_U2n : bool) (a : amps) (istep start : nat) (de start_de : Q)
    (update : option (list Q -> list Q)) : res amps :=
  match update with
  | Some f => if (start <=? istep) && qltb (qabs de) start_de
              then vector2amplitudes add_U2n (f (amplitudes2vector add_U2n a)) a else Ok a
  | None => Ok a
  end.

(** * Driver (96-310) *)
(** linear mixing, 268-276 *)
Definition mix (damp old new : Q) : Q := if qltb damp 1 then (damp * old + (1 - damp) * new)%Q else new.

(** iteration control, 225-301: [E k] and [res k] are the energy and the
    residual of iteration k (the amplitude equations are not modelled).
    Returns the number of iterations, the flag and the last energy. *)
Fixpoint cc_loop (E resid : nat -> Q) (ethresh tthresh : Q) (fuel istep : nat) (eold : Q) : nat * bool * Q :=
  match fuel with
  | O => (istep, false, eold)
  | S f =>
      let e := E istep in
      if qltb (qabs (e - eold)) ethresh && qltb (resid istep) tthresh then (S istep, true, e)
      else cc_loop E resid ethresh tthresh f (S istep) e
  end.
Record cc_settings := CC {
  nfock1 : nat; nfock2 : nat; max_cycle : nat; eth : Q; tth : Q; ehf : Q }.
(** what the driver leaves behind: total energy, correlation energy, returned
    amplitudes (those of the given iteration), the attributes e_corr and
    converged of the object (converged is initialised by 370 and not assigned
    again) *)
Record cc_result (A : Type) := CCR { e_total : Q; e_corr : Q; returned : option A; attr_converged : bool }.
Arguments CCR {A}. Arguments e_total {A}. Arguments e_corr {A}. Arguments returned {A}. Arguments attr_converged {A}.
(** without photons (nfock1 = 0) w is None (qed_eris, 434-451) and getD1p
    subscripts it when nfock2 > 0 (149); with photons the first iteration calls
    the undefined boson_occ (288); photons with nfock2 = 0 fail before that and
    are not modelled faithfully.  T1 is unbound when no iteration has run and
    amplitudes are requested (308). *)
Definition cc_kernel {A} (c : cc_settings) (E resid : nat -> Q) (amp : nat -> A) (ret : bool) : res (cc_result A) :=
  if (nfock1 c =? 0) && (0 <? nfock2 c) then Err TypeError
  else if (0 <? nfock1 c) && (0 <? max_cycle c) then Err NameError
  else let '(n, conv, e) := cc_loop E resid (eth c) (tth c) (max_cycle c) 0 0%Q in
    if ret then match n with O => Err UnboundLocalError | S k => Ok (CCR (ehf c + e)%Q e (Some (amp k)) false) end
    else Ok (CCR (ehf c + e)%Q e None false).
(** ccsd_nfock, 536-543, calls kernel(self, t1, t2, Sn, Un, eris, ret) while the
    parameters are (mycc, eris, t1, t2, Sn, Un, theory, ret): the request lands
    in [theory] and [ret] keeps its default. *)
Definition ccsd_nfock {A} (c : cc_settings) (E resid : nat -> Q) (amp : nat -> A) (ret : bool) : res (cc_result A) :=
  cc_kernel c E resid amp false.
