(* Specification vocabulary for YeeProps: Maxwell's equations on the staggered
   grid, written with difference quotients of the six components and without
   reference to the update functions of YeeModel. *)
From mathcomp Require Import all_ssreflect all_algebra.
From Verif Require Import YeeModel.
Set Implicit Arguments.
Unset Strict Implicit.
Unset Printing Implicit Defensive.
Import GRing.Theory Num.Theory.
Local Open Scope ring_scope.

Section YeeSpec.
Variable R : realFieldType.

(* a scalar function of the grid indices *)
Definition grid := nat -> nat -> nat -> R.

Definition cx (a : arr R) : grid := fun i j k => vx (a i j k).
Definition cy (a : arr R) : grid := fun i j k => vy (a i j k).
Definition cz (a : arr R) : grid := fun i j k => vz (a i j k).

(* the cells the loops visit *)
Definition interior (pi pj pk i j k : nat) : Prop :=
  (1 <= i < pi)%N /\ (1 <= j < pj)%N /\ (1 <= k < pk)%N.

(* spacing between the centres of the z layers k-1 and k *)
Definition dual (nz : nat -> R) (k : nat) : R := (nz k.-1 + nz k) / 2%:R.

(* difference quotients towards lower indices ... *)
Definition bx (h : R) (f : grid) : grid := fun i j k => (f i j k - f i.-1 j k) / h.
Definition by_ (h : R) (f : grid) : grid := fun i j k => (f i j k - f i j.-1 k) / h.
Definition bz (h : nat -> R) (f : grid) : grid :=
  fun i j k => (f i j k - f i j k.-1) / h k.
(* ... and towards higher indices *)
Definition fx (h : R) (f : grid) : grid := fun i j k => (f i.+1 j k - f i j k) / h.
Definition fy (h : R) (f : grid) : grid := fun i j k => (f i j.+1 k - f i j k) / h.
Definition fz (h : nat -> R) (f : grid) : grid :=
  fun i j k => (f i j k.+1 - f i j k) / h k.

(* Ampere's law in one cell: eo eps (E' - E) / dt = curl H - K with K the
   current density, given per component *)
Definition ampere (eo dt dx dy : R) (nz : nat -> R) (eps E E' H K : arr R)
    (i j k : nat) : Prop :=
  [/\ eo * cx eps i j k * (cx E' i j k - cx E i j k) / dt =
        by_ dy (cz H) i j k - bz (dual nz) (cy H) i j k - cx K i j k,
      eo * cy eps i j k * (cy E' i j k - cy E i j k) / dt =
        bz (dual nz) (cx H) i j k - bx dx (cz H) i j k - cy K i j k &
      eo * cz eps i j k * (cz E' i j k - cz E i j k) / dt =
        bx dx (cy H) i j k - by_ dy (cx H) i j k - cz K i j k].

(* Faraday's law in one cell: mu (H' - H) / dt = - curl E *)
Definition faraday (mu dt dx dy : R) (nz : nat -> R) (E H H' : arr R)
    (i j k : nat) : Prop :=
  [/\ mu * (cx H' i j k - cx H i j k) / dt =
        - (fy dy (cz E) i j k - fz nz (cy E) i j k),
      mu * (cy H' i j k - cy H i j k) / dt =
        - (fz nz (cx E) i j k - fx dx (cz E) i j k) &
      mu * (cz H' i j k - cz H i j k) / dt =
        - (fx dx (cy E) i j k - fy dy (cx E) i j k)].

(* discrete divergences: of H in the cell (i, j, k), of eps E at its node *)
Definition divH (dx dy : R) (nz : nat -> R) (H : arr R) (i j k : nat) : R :=
  fx dx (cx H) i j k + fy dy (cy H) i j k + fz nz (cz H) i j k.
Definition divD (dx dy : R) (nz : nat -> R) (eps E : arr R) (i j k : nat) : R :=
  bx dx (fun a b c => cx eps a b c * cx E a b c) i j k +
  by_ dy (fun a b c => cy eps a b c * cy E a b c) i j k +
  bz (dual nz) (fun a b c => cz eps a b c * cz E a b c) i j k.

(* the three kinds of cells of the energy theorem *)
Definition vacuum_cell (p : par R) (i j k : nat) : Prop :=
  position p i j k = true /\ mepsilon p i j k = 0.
Definition metal_cell (p : par R) (i j k : nat) : Prop :=
  [/\ mepsilon p i j k <> 0, mepsilon p i j k <> 100%:R &
      mepsilon p i j k <> 1000%:R].
Definition conductor_cell (p : par R) (i j k : nat) : Prop :=
  position p i j k = true /\ mepsilon p i j k = 1000%:R.

Definition molecular_cell (p : par R) (i j k : nat) : Prop :=
  position p i j k = true /\ mepsilon p i j k = 100%:R.
(* cells of the absorbing layer *)
Definition layer_cell (p : par R) (i j k : nat) : Prop :=
  position p i j k = false /\ mepsilon p i j k = 0.

(* no current *)
Definition no_current : arr R := fun _ _ _ => V3 0 0 0.
(* the mean of two arrays *)
Definition mean (a b : arr R) : arr R := fun i j k =>
  V3 ((cx a i j k + cx b i j k) / 2%:R) ((cy a i j k + cy b i j k) / 2%:R)
     ((cz a i j k + cz b i j k) / 2%:R).
Definition eps_ok (p : par R) (i j k : nat) : Prop :=
  [/\ vx (epsilon p i j k) <> 0, vy (epsilon p i j k) <> 0 &
      vz (epsilon p i j k) <> 0].

(* the cells whose magnetic field follows Faraday's law directly *)
Definition plain_cell (p : par R) (i j k : nat) : Prop :=
  vacuum_cell p i j k \/ metal_cell p i j k \/ molecular_cell p i j k.
(* the current of the molecules: the mean of dP and dP_old where they are *)
Definition molecular_current (p : par R) : arr R := fun i j k =>
  if mepsilon p i j k == 0 then V3 0 0 0 else mean (dP p) (dP_old p) i j k.
(* two states that hold the same numbers *)
Definition same_fields (s t : state R) : Prop := forall i j k,
  [/\ fE s i j k = fE t i j k, fH s i j k = fH t i j k, fD s i j k = fD t i j k,
      fB s i j k = fB t i j k & fJ s i j k = fJ t i j k].

(* Drude current: (J' - J)/dt + gamma (J' + J)/2 = eo omega^2 (E' + E)/2 *)
Definition drude (eo dt gam om : R) (E E' J J' : arr R) (i j k : nat) : Prop :=
  forall cmp : arr R -> grid, cmp = @cx \/ cmp = @cy \/ cmp = @cz ->
  (cmp J' i j k - cmp J i j k) / dt + gam * ((cmp J' i j k + cmp J i j k) / 2%:R) =
  eo * om ^+ 2 * ((cmp E' i j k + cmp E i j k) / 2%:R).

(* one scalar equation (kap d/dt + sig / eo) f = g, centred between two times *)
Definition relax (eo dt kap sig f f' : R) : R :=
  kap * (f' - f) / dt + sig * ((f' + f) / 2%:R) / eo.

(* the uniaxial absorbing layer: the auxiliary D and B obey one relaxation
   equation driven by the curl, E and H another one driven by D and B.
   The conductivities are taken where the component sits: sgx at i, sgxh at
   i + 1/2. *)
Definition layer_E (p : par R) (E E' D D' H : arr R) (i j k : nat) : Prop :=
  [/\ relax (eo p) (dt p) (ky p) (sgy p j) (cx D i j k) (cx D' i j k) =
        by_ (ds_y p) (cz H) i j k - bz (dual (ds_nz p)) (cy H) i j k,
      relax (eo p) (dt p) (kz p) (sgz p k) (cy D i j k) (cy D' i j k) =
        bz (dual (ds_nz p)) (cx H) i j k - bx (ds_x p) (cz H) i j k &
      relax (eo p) (dt p) (kx p) (sgx p i) (cz D i j k) (cz D' i j k) =
        bx (ds_x p) (cy H) i j k - by_ (ds_y p) (cx H) i j k] /\
  [/\ eo p * cx (epsilon p) i j k *
        relax (eo p) (dt p) (kz p) (sgz p k) (cx E i j k) (cx E' i j k) =
        relax (eo p) (dt p) (kx p) (sgxh p i) (cx D i j k) (cx D' i j k),
      eo p * cy (epsilon p) i j k *
        relax (eo p) (dt p) (kx p) (sgx p i) (cy E i j k) (cy E' i j k) =
        relax (eo p) (dt p) (ky p) (sgyh p j) (cy D i j k) (cy D' i j k) &
      eo p * cz (epsilon p) i j k *
        relax (eo p) (dt p) (ky p) (sgy p j) (cz E i j k) (cz E' i j k) =
        relax (eo p) (dt p) (kz p) (sgzh p k) (cz D i j k) (cz D' i j k)].
Definition layer_H (p : par R) (H H' B B' E : arr R) (i j k : nat) : Prop :=
  [/\ relax (eo p) (dt p) (ky p) (sgyh p j) (cx B i j k) (cx B' i j k) =
        - (fy (ds_y p) (cz E) i j k - fz (ds_nz p) (cy E) i j k),
      relax (eo p) (dt p) (kz p) (sgzh p k) (cy B i j k) (cy B' i j k) =
        - (fz (ds_nz p) (cx E) i j k - fx (ds_x p) (cz E) i j k) &
      relax (eo p) (dt p) (kx p) (sgxh p i) (cz B i j k) (cz B' i j k) =
        - (fx (ds_x p) (cy E) i j k - fy (ds_y p) (cx E) i j k)] /\
  [/\ uo p * ups p *
        relax (eo p) (dt p) (kz p) (sgzh p k) (cx H i j k) (cx H' i j k) =
        relax (eo p) (dt p) (kx p) (sgx p i) (cx B i j k) (cx B' i j k),
      uo p * ups p *
        relax (eo p) (dt p) (kx p) (sgxh p i) (cy H i j k) (cy H' i j k) =
        relax (eo p) (dt p) (ky p) (sgy p j) (cy B i j k) (cy B' i j k) &
      uo p * ups p *
        relax (eo p) (dt p) (ky p) (sgyh p j) (cz H i j k) (cz H' i j k) =
        relax (eo p) (dt p) (kz p) (sgz p k) (cz B i j k) (cz B' i j k)].
(* physical parameters of a layer cell *)
Definition layer_ok (p : par R) (i j k : nat) : Prop :=
  [/\ 0 < dt p, 0 < eo p, 0 < uo p & 0 < ups p] /\
  [/\ 0 < kx p, 0 < ky p & 0 < kz p] /\
  [/\ 0 <= sgx p i, 0 <= sgy p j & 0 <= sgz p k] /\
  [/\ 0 <= sgxh p i, 0 <= sgyh p j & 0 <= sgzh p k].

(* no absorption and no stretching in this cell *)
Definition layer_off (p : par R) (i j k : nat) : Prop :=
  [/\ kx p = 1, ky p = 1 & kz p = 1] /\
  [/\ sgx p i = 0, sgy p j = 0 & sgz p k = 0] /\
  [/\ sgxh p i = 0, sgyh p j = 0 & sgzh p k = 0].

(* electromagnetic energy: E at one time, H half a step earlier (H0) and half
   a step later (H1).  J is the Drude current.  A cell contributes
   eps E^2 (+ J^2 / omega^2 in a metal) and mu H0 H1, weighted with the
   volume the component occupies *)
Definition uE (p : par R) (e J : arr R) (i j k : nat) (cmp : arr R -> grid) : R :=
  if mepsilon p i j k == 0 then eo p * cmp (epsilon p) i j k * cmp e i j k ^+ 2
  else if mepsilon p i j k == 1000%:R then 0
  else eo p * mepsilon p i j k * cmp e i j k ^+ 2 +
       cmp J i j k ^+ 2 / (eo p * momega p i j k ^+ 2).

Definition box (pi pj pk : nat) (f : grid) : R :=
  \sum_(1 <= i < pi) \sum_(1 <= j < pj) \sum_(1 <= k < pk) f i j k.

Definition energy (p : par R) (pi pj pk : nat) (E J H0 H1 : arr R) : R :=
  box pi pj pk (fun i j k =>
    ds_x p * ds_y p *
    (dual (ds_nz p) k * (uE p E J i j k cx + uE p E J i j k cy) +
     ds_nz p k * uE p E J i j k cz +
     uo p * ups p *
       (ds_nz p k * (cx H0 i j k * cx H1 i j k + cy H0 i j k * cy H1 i j k) +
        dual (ds_nz p) k * (cz H0 i j k * cz H1 i j k)))).

(* the energy after step m + 1 of a run *)
Definition energy_at (p : par R) (pi pj pk : nat) (run : nat -> state R) (m : nat) : R :=
  energy p pi pj pk (fE (run m.+1)) (fJ (run m.+1)) (fH (run m)) (fH (run m.+1)).

(* Joule heat of the currents J (before) and J' (after) in one step *)
Definition heat1 (p : par R) (J J' : arr R) (i j k : nat) (cmp : arr R -> grid) : R :=
  if (mepsilon p i j k == 0) || (mepsilon p i j k == 1000%:R) then 0
  else mgamma p i j k * dt p * (cmp J' i j k + cmp J i j k) ^+ 2 /
       (2%:R * eo p * momega p i j k ^+ 2).
Definition heat (p : par R) (pi pj pk : nat) (J J' : arr R) : R :=
  box pi pj pk (fun i j k =>
    ds_x p * ds_y p *
    (dual (ds_nz p) k * (heat1 p J J' i j k cx + heat1 p J J' i j k cy) +
     ds_nz p k * heat1 p J J' i j k cz)).

(* the layers outside the loops hold no field: the tangential E at the upper
   walls, the tangential H at the lower walls *)
Definition walls (pi pj pk : nat) (s : state R) : Prop :=
  [/\ (forall j k, cy (fE s) pi j k = 0 /\ cz (fE s) pi j k = 0),
      (forall i k, cx (fE s) i pj k = 0 /\ cz (fE s) i pj k = 0) &
      (forall i j, cx (fE s) i j pk = 0 /\ cy (fE s) i j pk = 0)] /\
  [/\ (forall j k, cy (fH s) 0%N j k = 0 /\ cz (fH s) 0%N j k = 0),
      (forall i k, cx (fH s) i 0%N k = 0 /\ cz (fH s) i 0%N k = 0) &
      (forall i j, cx (fH s) i j 0%N = 0 /\ cy (fH s) i j 0%N = 0)].

(* a grid made of vacuum/dielectric, Drude metal and perfect conductor, with
   all the quantities that are divided by different from zero; the fields
   vanish inside the conductor *)
Definition good_cell (p : par R) (s : state R) (i j k : nat) : Prop :=
  (vacuum_cell p i j k /\
   [/\ vx (epsilon p i j k) <> 0, vy (epsilon p i j k) <> 0 &
       vz (epsilon p i j k) <> 0]) \/
  (metal_cell p i j k /\
   [/\ momega p i j k <> 0, 2%:R + mgamma p i j k * dt p <> 0 &
       2%:R * eo p * mepsilon p i j k * (2%:R + mgamma p i j k * dt p) +
       dt p * (momega p i j k ^+ 2 * eo p * dt p) <> 0]) \/
  (conductor_cell p i j k /\
   fE s i j k = V3 0 0 0 /\ fH s i j k = V3 0 0 0).

Definition spacings_ok (p : par R) (pk : nat) : Prop :=
  [/\ ds_x p <> 0, ds_y p <> 0,
      (forall k, (1 <= k < pk)%N -> ds_nz p k <> 0) &
      (forall k, (1 <= k < pk)%N -> ds_nz p k.-1 + ds_nz p k <> 0)].

Definition constants_ok (p : par R) : Prop :=
  [/\ dt p <> 0, eo p <> 0, uo p <> 0 & ups p <> 0].

(* passive metals: positive spacings and constants, no gain *)
Definition passive (p : par R) (pi pj pk : nat) : Prop :=
  [/\ 0 < dt p, 0 < eo p, 0 <= ds_x p, 0 <= ds_y p & (forall k, 0 <= ds_nz p k)] /\
  forall i j k, interior pi pj pk i j k -> 0 <= mgamma p i j k.

(* ---- stability ---- *)
(* sum of the squares of all components in the cells of the loops *)
Definition normsq (pi pj pk : nat) (a : arr R) : R :=
  box pi pj pk (fun i j k => cx a i j k ^+ 2 + cy a i j k ^+ 2 + cz a i j k ^+ 2).
Definition invsq (x y z : R) : R := (x ^+ 2)^-1 + (y ^+ 2)^-1 + (z ^+ 2)^-1.

(* a lossless dielectric on a uniform grid, relative permittivity at least em *)
Definition dielectric (p : par R) (pi pj pk : nat) (dz em : R) : Prop :=
  [/\ 0 < dt p, 0 < eo p, 0 < uo p & 0 < ups p] /\
  [/\ 0 < ds_x p, 0 < ds_y p, 0 < dz & forall k, (k < pk)%N -> ds_nz p k = dz] /\
  0 < em /\
  forall i j k, interior pi pj pk i j k -> vacuum_cell p i j k /\
    [/\ em <= vx (epsilon p i j k), em <= vy (epsilon p i j k) &
        em <= vz (epsilon p i j k)].

(* the Courant condition: (c dt)^2 (1/dx^2 + 1/dy^2 + 1/dz^2) < em *)
Definition courant (p : par R) (dz em : R) : Prop :=
  dt p ^+ 2 * invsq (ds_x p) (ds_y p) dz < uo p * ups p * eo p * em.

End YeeSpec.
