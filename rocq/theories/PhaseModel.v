(** Model of the weight update of openms/qmc/propagators.py (phaseless
    constraint), the force-bias bound, the reductions over ranks and the
    gathering of exchange energies (estimators.py).  Complex numbers are pairs
    of reals; rounding is not modelled. *)
From Coq Require Import Reals List String.
From Verif Require Import Base.
Import ListNotations.
Open Scope R_scope.

Definition C : Type := (R * R)%type.
Definition re (z : C) : R := fst z.
Definition im (z : C) : R := snd z.
Definition cabs (z : C) : R := sqrt (re z * re z + im z * im z).
Definition cscale (k : R) (z : C) : C := (k * re z, k * im z).
Definition cmulc (x y : C) : C := (re x * re y - im x * im y, re x * im y + im x * re y).
Definition cexp (z : C) : C := (exp (re z) * cos (im z), exp (re z) * sin (im z)).

(** propagators.py:510-533, [rescale_fbias], one component *)
Definition rescale1 (bound : R) (f : C) : C :=
  if Rlt_dec bound (cabs f)
  then (if Rlt_dec (1 / 1000000000000) (cabs f) then cscale (/ cabs f) f else f)
  else f.
(** the array, together with the counter [nfbound] *)
Definition rescale_fbias (bound : R) (nfb : nat) (fs : list C) : list C * nat :=
  (map (rescale1 bound) fs,
   (nfb + length (filter (fun f => if Rlt_dec bound (cabs f) then true else false) fs))%nat).

(** numpy.clip *)
Definition clip (x lo hi : R) : R := Rmin (Rmax x lo) hi.

(** One walker: weight and stored hybrid energy. *)
Record walker := Walker { weight : R; ehyb : R }.
Record inputs := Inputs { ratio : C; cfb : C; cmf : C; eshift : R }.

(** propagators.py:794-800.  [ehybrid] is the real part of
    -(log ratio + cfb + cmf)/dt clipped around the shift; numpy's [clip] with
    [out=ehybrid.real] returns the real array, so the imaginary part is lost.
    A vanishing ratio gives log = -inf and is clipped to the upper end. *)
Definition ehybrid (dt ebound : R) (i : inputs) : R :=
  if Req_EM_T (cabs (ratio i)) 0 then eshift i + ebound
  else clip (- (ln (cabs (ratio i)) + re (cfb i) + re (cmf i)) / dt)
            (eshift i - ebound) (eshift i + ebound).
(** propagators.py:806: phase = Im(-dt*ehybrid - cfb), ehybrid being real *)
Definition hyb_phase (i : inputs) : R := - im (cfb i).
(** propagators.py:793-811 and 826.  The exponent of the importance function
    is real for a real shift, and [abs] leaves the exponential as it is. *)
Definition hybrid_step (dt ebound : R) (w : walker) (i : inputs) : walker :=
  let e := ehybrid dt ebound i in
  let imp := exp (- dt * (/ 2 * (e + ehyb w) - eshift i)) in
  Walker (weight w * (imp * Rmax 0 (cos (hyb_phase i)))) e.

(** cos(angle z): angle(0) = 0 in numpy *)
Definition cos_angle (z : C) : R := if Req_EM_T (cabs z) 0 then 1 else re z / cabs z.
(** propagators.py:812-820 and 826; [eloc] the real part of the local energy *)
Definition local_step (dt eloc : R) (w : walker) (i : inputs) : walker :=
  let r := cmulc (ratio i) (cexp (cmf i)) in
  Walker (weight w * (exp (- dt * eloc) * Rmax 0 (cos_angle r))) (ehyb w).

(** propagators.py:793, 812, 823: choice of the scheme *)
Definition update_weight (scheme : option string) (dt ebound eloc : R) (w : walker) (i : inputs)
  : res walker :=
  match scheme with
  | Some s => if String.eqb s "hybrid" then Ok (hybrid_step dt ebound w i)
              else if String.eqb s "local" then Ok (local_step dt eloc w i)
              else Err ValueError
  | None => Err ValueError
  end.

(** Options, qmc.py:226, 315, 345-367: the constructor argument (default None)
    is always stored under "energy_scheme", overridden by the user's
    propagator options if those have the key; propagators.py:296
    [kwargs.get("energy_scheme", "hybrid")] then finds the key. *)
Definition scheme_of (arg : option string) (user : option (option string)) : option string :=
  match user with Some s => s | None => arg end.
(** Default value of the constructor argument, qmc.py:226 *)
Definition default_scheme_arg : option string := None.

(** Repeated steps of one walker, initial hybrid energy 0
    (generic_walkers.py:119). *)
Definition hybrid_run (dt ebound : R) (w : walker) (l : list inputs) : walker :=
  fold_left (hybrid_step dt ebound) l w.

(** Energies per rank: a walker's weight, electronic local energy, bosonic and
    coupling energy (real parts). *)
Record wen := Wen { ww : R; we : R; wb : R; wg : R }.
Definition rsum (l : list R) : R := fold_right Rplus 0 l.
Definition dotw (f : wen -> R) (l : list wen) : R := rsum (map (fun x => ww x * f x) l).
(** [allreduce(SUM)] of one number per rank *)
Definition allreduce (l : list R) : R := rsum l.
(** propagators.py:472-507 ([Phaseless.local_energy]), rank r: (etot, norm); the
    reduction happens when there is more than one rank, and is the identity
    for one. *)
Definition local_energy (ranks : list (list wen)) (r : nat) : R * R :=
  let etot l := dotw we l in
  let norm l := rsum (map ww l) in
  if Nat.ltb 1 (length ranks)
  then (allreduce (map etot ranks), allreduce (map norm ranks))
  else (etot (nth r ranks []), norm (nth r ranks [])).
(** propagators.py:1179-1218 ([PhaselessElecBoson.local_energy]): etot is
    recomputed from the local walkers, norm is kept from the base class; bosons
    switched on. *)
Definition local_energy_eb (ranks : list (list wen)) (r : nat) : R * R :=
  let norm := snd (local_energy ranks r) in
  (dotw (fun x => we x + (wb x + wg x)) (nth r ranks []), norm).

(** estimators.py:557-590: each rank computes [f] of its own walkers; Gatherv
    writes rank r's block at displs[r] of a zero buffer of length nwalkers.
    [f] is the exchange energy of one walker ([exx] in LinModel). *)
Section Gather.
Context {A E : Type} (zero : E) (f : A -> E).
Fixpoint write (buf : list E) (pos : nat) (l : list E) : list E :=
  match l with [] => buf | x :: r => write (upd buf pos x) (S pos) r end.
Definition gatherv (nwalkers : nat) (displs : list nat) (locals : list (list E)) : list E :=
  fold_left (fun buf dl => write buf (fst dl) (snd dl)) (combine displs locals)
            (repeat zero nwalkers).
Definition exx_chunked (nwalkers : nat) (displs : list nat) (parts : list (list A)) : list E :=
  gatherv nwalkers displs (map (map f) parts).
(** generic_walkers.py:90: [displs = [sum(walker_counter[:i]) for i in range(size)]] *)
Definition displs_of (counts : list nat) : list nat :=
  map (fun i => list_sum (firstn i counts)) (seq 0 (length counts)).
End Gather.
