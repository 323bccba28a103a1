(** Model of openms/models/aggregates.py: spectra, the disordered-aggregate
    class DMA and the choice of states.  Numbers are an arbitrary real field;
    rounding is not modelled.  The random site energies, np.linalg.eig and
    numpy's argsort are arguments.  Printing is left out. *)
From mathcomp Require Import all_ssreflect all_algebra.
From Verif Require Base.
Set Implicit Arguments.
Unset Strict Implicit.
Unset Printing Implicit Defensive.
Import GRing.Theory Num.Theory.
Notation res := Base.res.
Notation Ok := Base.Ok.
Notation Err := Base.Err.
Local Open Scope ring_scope.

Section Aggregates.
Variable F : realFieldType.
Notation vec := (nat -> F).
Notation mat := (nat -> nat -> F).

(** linear_spec, aggregates.py 26-39.  [state] only holds positions inside the
    arrays. *)
Definition linear_spec (elist : seq F) (state : seq nat) (evals dip : vec) (gamma : F) : seq F :=
  [seq \sum_(j <- state) dip j * dip j * gamma / ((e - evals j) ^+ 2 + gamma ^+ 2) | e <- elist].

(** tdes, aggregates.py 42-80: [sys] is not imported and is used at the end of
    the first turn of the outer loop. *)
Definition tdes_entry (state : seq nat) (evals dip1 : vec) (nuv : nat) (eng2 dip2 : mat) (gamma Ex Ed : F) : F :=
  \sum_(vj <- zip (iota 0 (size state)) state)
    (- (\sum_(uv <- iota 0 nuv) dip2 vj.1 uv * dip2 vj.1 uv * gamma / ((Ed - eng2 vj.1 uv) ^+ 2 + gamma ^+ 2))
     + 2%:R * (dip1 vj.2 * dip1 vj.2 * gamma) / ((Ed - evals vj.2) ^+ 2 + gamma ^+ 2))
    * (dip1 vj.2 * dip1 vj.2 * gamma) / ((Ex - evals vj.2) ^+ 2 + gamma ^+ 2).
Definition tdes (elist : seq F) (state : seq nat) (evals dip1 : vec) (nuv : nat) (eng2 dip2 : mat) (gamma : F) : res (seq (seq F)) :=
  if elist is [::] then Ok [::] else Err Base.NameError.
(** the same with the module imported *)
Definition tdes_read (elist : seq F) (state : seq nat) (evals dip1 : vec) (nuv : nat) (eng2 dip2 : mat) (gamma : F) : seq (seq F) :=
  [seq [seq tdes_entry state evals dip1 nuv eng2 dip2 gamma Ex Ed | Ex <- elist] | Ed <- elist].

(** * DMA *)
Record dma := Dma {
  nsite : nat; nexc : nat; epsilon : F; hopping : F; sigma : F;
  amat : mat;                       (** self.A *)
  evals : option vec; evecs : option mat;  (** missing before kernel() *)
  excdipole1 : option vec;
  dipsortidx : option (seq nat); totdip : option F; dip_cutoff : option F }.

(** what the name bd is bound to: the module openms.lib.backend (line 21) or,
    when the file is run as a script, the backend object (line 306).  The
    module has no [zeros]. *)
Inductive bd_name := BdModule | BdObject.
(** DMA.__init__, aggregates.py 95-139 *)
Definition dma_init (bd : bd_name) (n ne : nat) (eps t sig : F) : res dma :=
  match bd with
  | BdModule => Err Base.AttributeError
  | BdObject => Ok (Dma n (minn ne n) eps t sig (fun _ _ => 0) None None None None None None)
  end.

Definition set2 (a : mat) (i j : nat) (x : F) : mat := fun p q => if (p == i) && (q == j) then x else a p q.
(** the loop of kernel, aggregates.py 146-151; [g i] is the random site energy *)
Definition fill_site (n : nat) (t : F) (g : vec) (a : mat) (i : nat) : mat :=
  let a := set2 a i i (g i) in
  if (i.+1 < n)%N then set2 (set2 a i i.+1 t) i.+1 i t else a.
Definition fill (n : nat) (t : F) (g : vec) (a : mat) : mat := foldl (fill_site n t g) a (iota 0 n).
(** DMA.kernel, aggregates.py 141-157: the random energies are drawn with mean
    epsilon and width sigma |hopping| ([gauss mu s i] is draw number i) *)
Definition kernel (gauss : F -> F -> nat -> F) (eig : mat -> vec * mat) (argsort : vec -> seq nat) (m : dma) : dma :=
  let a := fill (nsite m) (hopping m) (gauss (epsilon m) (sigma m * `|hopping m|)) (amat m) in
  let: (w, v) := eig a in
  let idx := argsort w in
  Dma (nsite m) (nexc m) (epsilon m) (hopping m) (sigma m) a
    (Some (fun u => w (nth 0%N idx u))) (Some (fun i u => v i (nth 0%N idx u)))
    (excdipole1 m) (dipsortidx m) (totdip m) (dip_cutoff m).

(** DMA.energies, aggregates.py 160-162 *)
Definition energies (m : dma) : res (seq F) :=
  if evals m is Some w then Ok [seq w u | u <- iota 0 (minn (nexc m) (nsite m))] else Err Base.AttributeError.

(** DMA.dipole, aggregates.py 165-175 *)
Definition with_dipole (m : dma) (d : vec) : dma :=
  Dma (nsite m) (nexc m) (epsilon m) (hopping m) (sigma m) (amat m) (evals m) (evecs m)
    (Some d) (dipsortidx m) (totdip m) (dip_cutoff m).
Definition dipole (m : dma) : res dma :=
  if evecs m is Some v then Ok (with_dipole m (fun u => \sum_(j <- iota 0 (nsite m)) v j u))
  else if nsite m is 0%N then Ok (with_dipole m (fun=> 0)) else Err Base.AttributeError.
(** the guard "if self.excdipole1 is None: self.dipole()" *)
Definition ensure_dipole (m : dma) : res dma := if excdipole1 m is Some _ then Ok m else dipole m.

(** DMA.sortdipole, aggregates.py 178-205; max of an empty list raises
    ValueError *)
Definition sortdipole (argsort : vec -> seq nat) (m : dma) : res dma :=
  Base.rbind (ensure_dipole m) (fun m =>
  if excdipole1 m is Some d then
    let ab := fun i => `|d i| in
    if nsite m is 0%N then Err Base.ValueError else
    let mx := \big[Num.max/ab 0%N]_(i <- iota 0 (nsite m)) ab i in
    Ok (Dma (nsite m) (nexc m) (epsilon m) (hopping m) (sigma m) (amat m) (evals m) (evecs m) (Some d)
      (Some (rev (argsort ab))) (Some (\sum_(i <- iota 0 (nsite m)) d i * d i)) (Some (10%:R^-1 * mx)))
  else Err Base.AttributeError).

(** DMA.spdfselection, aggregates.py 208-268: the s and p states and the two
    ratios that are printed *)
Definition s_weight (n : nat) (v : mat) (u : nat) : F := \sum_(j <- iota 0 n) v j u * `|v j u|.
Definition p_weight (n : nat) (v : mat) (u w : nat) : F := \sum_(j <- iota 0 n) v j u * `|v j w|.
Definition local_gs (n : nat) (v : mat) (c0 : F) (order : seq nat) : seq nat :=
  [seq u <- order | c0 <= `|s_weight n v u|].
Definition ex_step (n : nat) (v : mat) (d : vec) (c1 cut : F) (gs : seq nat) (u : nat) (acc : seq nat) (w : nat) : seq nat :=
  if w == u then acc else
  if (w \in acc) || (w \in gs) then acc else
  if `|d w| < cut then acc else
  if c1 <= `|p_weight n v u w| then rcons acc w else acc.
Definition local_ex (n : nat) (v : mat) (d : vec) (c1 cut : F) (gs : seq nat) : seq nat :=
  foldl (fun acc u => foldl (ex_step n v d c1 cut gs u) acc (iota 0 n)) [::] gs.
Definition spdfselection (argsort : vec -> seq nat) (m : dma) : res (seq nat * seq nat * F * F) :=
  Base.rbind (if dipsortidx m is Some _ then Ok m else sortdipole argsort m) (fun m =>
  match evecs m, excdipole1 m, dipsortidx m, totdip m, dip_cutoff m with
  | Some v, Some d, Some order, Some tot, Some cut =>
      let gs := local_gs (nsite m) v (4%:R / 5%:R) order in
      let ex := local_ex (nsite m) v d 2%:R^-1 cut gs in
      let s := \sum_(u <- gs) d u ^+ 2 in
      Ok (gs, ex, s / tot, (s + \sum_(u <- ex) d u ^+ 2) / tot)
  | _, _, _, _, _ => Err Base.AttributeError
  end).

(** DMA.linearabs, aggregates.py 275-296; the bare Exception is RuntimeError *)
Definition linearabs (m : dma) (elist : option (seq F)) (selected : option (seq nat)) (gamma : F) : res (dma * seq F) :=
  if elist is Some es then
    Base.rbind (ensure_dipole m) (fun m =>
    match evals m, excdipole1 m with
    | Some w, Some d => Ok (m, linear_spec es (odflt (iota 0 (nexc m)) selected) w d gamma)
    | _, _ => Err Base.AttributeError
    end)
  else Err Base.RuntimeError.
End Aggregates.
