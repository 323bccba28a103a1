(* Model of the finite-difference time-domain field update of
   openms/lib/fdtd/timeupdate.c.

   Numbers are elements of an arbitrary field (single precision rounding is
   not modelled).  An array triple such as (Ex, Ey, Ez) is one function from
   the three indices to a vector; reading outside the allocated range is the
   subject of YeeProps' index theorems, not of these definitions. *)
From mathcomp Require Import all_ssreflect all_algebra.
Set Implicit Arguments.
Unset Strict Implicit.
Unset Printing Implicit Defensive.
Import GRing.Theory.
Local Open Scope ring_scope.

Section YeeModel.
Variable F : fieldType.

(* one (x, y, z) triple of numbers *)
Record v3 : Type := V3 { vx : F; vy : F; vz : F }.

(* the arrays "float ***Ax, ***Ay, ***Az" of memory.c 13-26, as one function
   of the indices [i][j][k] *)
Definition arr := nat -> nat -> nat -> v3.

(* timeupdate.c: an assignment to the three components at [i][j][k] *)
Definition put (a : arr) (i j k : nat) (v : v3) : arr :=
  fun i' j' k' => if [&& i' == i, j' == j & k' == k] then v else a i' j' k'.

(* the globals of parameter.c 12-21 and memory.c 8-16 read by the update.
   sgx i and sgxh i stand for sigmax(i) and sigmax(i + 0.5) of sigma.c. *)
Record par : Type := Par {
  dt : F; eo : F; uo : F; ups : F;
  ds_x : F; ds_y : F; ds_nz : nat -> F;
  kx : F; ky : F; kz : F;
  sgx : nat -> F; sgy : nat -> F; sgz : nat -> F;
  sgxh : nat -> F; sgyh : nat -> F; sgzh : nat -> F;
  epsilon : arr;                           (* epsilonx, epsilony, epsilonz *)
  mepsilon : nat -> nat -> nat -> F;
  momega : nat -> nat -> nat -> F;
  mgamma : nat -> nat -> nat -> F;
  position : nat -> nat -> nat -> bool;    (* the chars 1 and 0 *)
  dP : arr; dP_old : arr
}.

(* the field arrays of memory.c 13-19 *)
Record state : Type := St {
  fE : arr; fH : arr; fD : arr; fB : arr; fJ : arr
}.

Variable p : par.

(* timeupdate.c 120: tus = dt / uo / ups *)
Definition tus : F := dt p / uo p / ups p.

(* the finite differences of the magnetic field that every electric update
   contains, timeupdate.c 513-514 / 517-518 / 521-522 *)
Definition curlH (H : arr) (i j k : nat) : v3 :=
  V3 ((vz (H i j k) - vz (H i (j - 1)%N k)) / ds_y p -
      (vy (H i j k) - vy (H i j (k - 1)%N)) *
        (2%:R / (ds_nz p (k - 1)%N + ds_nz p k)))
     ((vx (H i j k) - vx (H i j (k - 1)%N)) *
        (2%:R / (ds_nz p (k - 1)%N + ds_nz p k)) -
      (vz (H i j k) - vz (H (i - 1)%N j k)) / ds_x p)
     ((vy (H i j k) - vy (H (i - 1)%N j k)) / ds_x p -
      (vx (H i j k) - vx (H i (j - 1)%N k)) / ds_y p).

(* the finite differences of the electric field that every magnetic update
   contains, timeupdate.c 659-665 *)
Definition curlE (E : arr) (i j k : nat) : v3 :=
  V3 ((vz (E i j.+1 k) - vz (E i j k)) / ds_y p -
      (vy (E i j k.+1) - vy (E i j k)) / ds_nz p k)
     ((vx (E i j k.+1) - vx (E i j k)) / ds_nz p k -
      (vz (E i.+1 j k) - vz (E i j k)) / ds_x p)
     ((vy (E i.+1 j k) - vy (E i j k)) / ds_x p -
      (vx (E i j.+1 k) - vx (E i j k)) / ds_y p).

Definition set_E (s : state) (E : arr) : state :=
  St E (fH s) (fD s) (fB s) (fJ s).
Definition set_H (s : state) (H : arr) : state :=
  St (fE s) H (fD s) (fB s) (fJ s).
Definition set_ED (s : state) (E D : arr) : state :=
  St E (fH s) D (fB s) (fJ s).
Definition set_EJ (s : state) (E J : arr) : state :=
  St E (fH s) (fD s) (fB s) J.
Definition set_HB (s : state) (H B : arr) : state :=
  St (fE s) H (fD s) B (fJ s).

(* timeupdate.c 511-523 (and 728-740 for the imaginary field) *)
Definition normal_E_field_update (s : state) (i j k : nat) : state :=
  let e := fE s i j k in
  let c := curlH (fH s) i j k in
  set_E s (put (fE s) i j k
    (V3 (vx e + (dt p / eo p / vx (epsilon p i j k)) * vx c)
        (vy e + (dt p / eo p / vy (epsilon p i j k)) * vy c)
        (vz e + (dt p / eo p / vz (epsilon p i j k)) * vz c))).

(* timeupdate.c 525-544 *)
Definition molecular_E_field_update (s : state) (i j k : nat) : state :=
  let e := fE s i j k in
  let c := curlH (fH s) i j k in
  let Px := (vx (dP p i j k) + vx (dP_old p i j k)) / 2%:R in
  let Py := (vy (dP p i j k) + vy (dP_old p i j k)) / 2%:R in
  let Pz := (vz (dP p i j k) + vz (dP_old p i j k)) / 2%:R in
  set_E s (put (fE s) i j k
    (V3 (vx e + (dt p / eo p / vx (epsilon p i j k)) * (vx c - Px))
        (vy e + (dt p / eo p / vy (epsilon p i j k)) * (vy c - Py))
        (vz e + (dt p / eo p / vz (epsilon p i j k)) * (vz c - Pz)))).

(* timeupdate.c 550-551 *)
Definition metal_km (i j k : nat) : F :=
  (2%:R - mgamma p i j k * dt p) / (2%:R + mgamma p i j k * dt p).
Definition metal_bm (i j k : nat) : F :=
  momega p i j k * momega p i j k * eo p * dt p /
  (2%:R + mgamma p i j k * dt p).

(* timeupdate.c 557-579: one component of the new field *)
Definition metal_e (i j k : nat) (e c J : F) : F :=
  ((2%:R * eo p * mepsilon p i j k - dt p * metal_bm i j k) /
   (2%:R * eo p * mepsilon p i j k + dt p * metal_bm i j k)) * e +
  (2%:R * dt p / (2%:R * eo p * mepsilon p i j k + dt p * metal_bm i j k)) *
  (c - 2%:R^-1 * (1 + metal_km i j k) * J).

(* timeupdate.c 581-583: one component of the new current *)
Definition metal_j (i j k : nat) (e' e J : F) : F :=
  metal_km i j k * J + metal_bm i j k * (e' + e).

(* timeupdate.c 546-584 (and 742-780 for the imaginary field) *)
Definition metal_E_field_update (s : state) (i j k : nat) : state :=
  let e := fE s i j k in
  let J := fJ s i j k in
  let c := curlH (fH s) i j k in
  let e' := V3 (metal_e i j k (vx e) (vx c) (vx J))
               (metal_e i j k (vy e) (vy c) (vy J))
               (metal_e i j k (vz e) (vz c) (vz J)) in
  let J' := V3 (metal_j i j k (vx e') (vx e) (vx J))
               (metal_j i j k (vy e') (vy e) (vy J))
               (metal_j i j k (vz e') (vz e) (vz J)) in
  set_EJ s (put (fE s) i j k e') (put (fJ s) i j k J').

(* timeupdate.c 59-116: the coefficients of the absorbing layer.  All the
   quotients have the form (2 eo k - dt s) / (2 eo k + dt s),
   (2 eo dt) / (2 eo k + dt s), ... with s one of the sigmas *)
Definition co_aa (kap sig : F) : F :=                          (* 59-64, 70-75 *)
  (2%:R * eo p * kap - dt p * sig) / (2%:R * eo p * kap + dt p * sig).
Definition co_bb (kap sig : F) : F :=                          (* 66-68 *)
  (2%:R * eo p * dt p) / (2%:R * eo p * kap + dt p * sig).
Definition co_dd (kap sig eps : F) : F :=                      (* 77-79 *)
  2%:R / (2%:R * eo p * kap + dt p * sig) / eps.
Definition co_ee (kap sig : F) : F :=                          (* 81-83 *)
  kap + dt p * sig / 2%:R / eo p.
Definition co_ff (kap sig : F) : F :=                          (* 85-87 *)
  kap - dt p * sig / 2%:R / eo p.
Definition co_jj (kap sig : F) : F :=                          (* 107-109 *)
  (2%:R * eo p) / (2%:R * eo p * kap + dt p * sig) / uo p / ups p.

Definition aax i := co_aa (kx p) (sgx p i).   Definition aay j := co_aa (ky p) (sgy p j).
Definition aaz k := co_aa (kz p) (sgz p k).
Definition bbx i := co_bb (kx p) (sgx p i).   Definition bby j := co_bb (ky p) (sgy p j).
Definition bbz k := co_bb (kz p) (sgz p k).
Definition ccx i := co_aa (kx p) (sgx p i).   Definition ccy j := co_aa (ky p) (sgy p j).
Definition ccz k := co_aa (kz p) (sgz p k).
Definition ddx i j k := co_dd (kz p) (sgz p k) (vx (epsilon p i j k)).
Definition ddy i j k := co_dd (kx p) (sgx p i) (vy (epsilon p i j k)).
Definition ddz i j k := co_dd (ky p) (sgy p j) (vz (epsilon p i j k)).
Definition eex i := co_ee (kx p) (sgxh p i).  Definition eey j := co_ee (ky p) (sgyh p j).
Definition eez k := co_ee (kz p) (sgzh p k).
Definition ffx i := co_ff (kx p) (sgxh p i).  Definition ffy j := co_ff (ky p) (sgyh p j).
Definition ffz k := co_ff (kz p) (sgzh p k).
(* 89-94 / 96-98 / 100-105 *)
Definition ggx i := co_aa (kx p) (sgxh p i).  Definition ggy j := co_aa (ky p) (sgyh p j).
Definition ggz k := co_aa (kz p) (sgzh p k).
Definition hhx i := co_bb (kx p) (sgxh p i).  Definition hhy j := co_bb (ky p) (sgyh p j).
Definition hhz k := co_bb (kz p) (sgzh p k).
Definition iix i := co_aa (kx p) (sgxh p i).  Definition iiy j := co_aa (ky p) (sgyh p j).
Definition iiz k := co_aa (kz p) (sgzh p k).
Definition jjx i := co_jj (kx p) (sgxh p i).  Definition jjy j := co_jj (ky p) (sgyh p j).
Definition jjz k := co_jj (kz p) (sgzh p k).
(* 111-113 / 115-117 *)
Definition kkx i := co_ee (kx p) (sgx p i).   Definition kky j := co_ee (ky p) (sgy p j).
Definition kkz k := co_ee (kz p) (sgz p k).
Definition llx i := co_ff (kx p) (sgx p i).   Definition lly j := co_ff (ky p) (sgy p j).
Definition llz k := co_ff (kz p) (sgz p k).

(* timeupdate.c 626-649 (and 782-805 for the imaginary field) *)
Definition pml_E_field_update (s : state) (i j k : nat) : state :=
  let e := fE s i j k in
  let d := fD s i j k in
  let c := curlH (fH s) i j k in
  let d' := V3 (aay j * vx d + bby j * vx c)
               (aaz k * vy d + bbz k * vy c)
               (aax i * vz d + bbx i * vz c) in
  let e' := V3 (ccz k * vx e + ddx i j k * (eex i * vx d' - ffx i * vx d))
               (ccx i * vy e + ddy i j k * (eey j * vy d' - ffy j * vy d))
               (ccy j * vz e + ddz i j k * (eez k * vz d' - ffz k * vz d)) in
  set_ED s (put (fE s) i j k e') (put (fD s) i j k d').

(* timeupdate.c 651-655 (and 807-811) *)
Definition pcm_E_field_update (s : state) (i j k : nat) : state :=
  set_E s (put (fE s) i j k (V3 0 0 0)).

(* timeupdate.c 657-666 (and 813-823) *)
Definition normal_H_field_update (s : state) (i j k : nat) : state :=
  let h := fH s i j k in
  let c := curlE (fE s) i j k in
  set_H s (put (fH s) i j k
    (V3 (vx h - tus * vx c) (vy h - tus * vy c) (vz h - tus * vz c))).

(* timeupdate.c 699-720 (and 825-846) *)
Definition pml_H_field_update (s : state) (i j k : nat) : state :=
  let h := fH s i j k in
  let b := fB s i j k in
  let c := curlE (fE s) i j k in
  let b' := V3 (ggy j * vx b - hhy j * vx c)
               (ggz k * vy b - hhz k * vy c)
               (ggx i * vz b - hhx i * vz c) in
  let h' := V3 (iiz k * vx h + jjz k * (kkx i * vx b' - llx i * vx b))
               (iix i * vy h + jjx i * (kky j * vy b' - lly j * vy b))
               (iiy j * vz h + jjy j * (kkz k * vz b' - llz k * vz b)) in
  set_HB s (put (fH s) i j k h') (put (fB s) i j k b').

(* timeupdate.c 722-726 (and 848-852) *)
Definition pcm_H_field_update (s : state) (i j k : nat) : state :=
  set_H s (put (fH s) i j k (V3 0 0 0)).

(* timeupdate.c 238-259: which electric update a cell gets *)
Definition E_cell (s : state) (i j k : nat) : state :=
  let m := mepsilon p i j k in
  let pos := position p i j k in
  if pos && (m == 0) then normal_E_field_update s i j k
  else if pos && (m == 100%:R) then molecular_E_field_update s i j k
  else if pos && ((m != 0) && (m != 1000%:R)) then metal_E_field_update s i j k
  else if ~~ pos && ((m != 0) && (m != 1000%:R)) then metal_E_field_update s i j k
  else if pos && (m == 1000%:R) then pcm_E_field_update s i j k
  else if ~~ pos && (m == 0) then pml_E_field_update s i j k
  else s.

(* timeupdate.c 268-283: the same for the imaginary field, without the
   molecular branch *)
Definition iE_cell (s : state) (i j k : nat) : state :=
  let m := mepsilon p i j k in
  let pos := position p i j k in
  if pos && (m == 0) then normal_E_field_update s i j k
  else if pos && ((m != 0) && (m != 1000%:R)) then metal_E_field_update s i j k
  else if ~~ pos && ((m != 0) && (m != 1000%:R)) then metal_E_field_update s i j k
  else if pos && (m == 1000%:R) then pcm_E_field_update s i j k
  else if ~~ pos && (m == 0) then pml_E_field_update s i j k
  else s.

(* timeupdate.c 312-324 (and 333-345 for the imaginary field) *)
Definition H_cell (s : state) (i j k : nat) : state :=
  let m := mepsilon p i j k in
  let pos := position p i j k in
  if pos && (m != 1000%:R) then normal_H_field_update s i j k
  else if ~~ pos && ((m != 0) && (m != 1000%:R)) then normal_H_field_update s i j k
  else if pos && (m == 1000%:R) then pcm_H_field_update s i j k
  else if ~~ pos && (m == 0) then pml_H_field_update s i j k
  else s.

(* the triple loops "for (i = 1; i < pisize; i++) for (j ...) for (k ...)",
   timeupdate.c 235-237 *)
Definition cells (pisize pjsize pksize : nat) : seq (nat * nat * nat) :=
  [seq (ij.1, ij.2, k) | ij <- [seq (i, j) | i <- iota 1 (pisize - 1),
                                            j <- iota 1 (pjsize - 1)],
                        k <- iota 1 (pksize - 1)].

Definition sweep (f : state -> nat -> nat -> nat -> state)
    (cs : seq (nat * nat * nat)) (s : state) : state :=
  foldl (fun s c => f s c.1.1 c.1.2 c.2) s cs.

(* timeupdate.c 234-260 and 309-325: propagate with neither periodic
   boundary nor parity (use_periodic_x = use_periodic_y = 0, the parities 0) *)
Definition propagate (pisize pjsize pksize : nat) (s : state) : state :=
  let cs := cells pisize pjsize pksize in
  sweep H_cell cs (sweep E_cell cs s).

End YeeModel.
