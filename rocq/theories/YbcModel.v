(* Model of the boundary conditions of the field update of
   openms/lib/fdtd/timeupdate.c (periodic, triangular and mirror boundaries),
   of the complex field update that uses them, and of the functions of
   openms/lib/fdtd/parameter.c that set the grid sizes.

   The single cell updates are those of YeeModel.  cos and sin of the phases
   enter as numbers.  The branches on the boundary flags are those of the
   code; printing is left out. *)
From mathcomp Require Import all_ssreflect all_algebra.
From Verif Require Import YeeModel.
Set Implicit Arguments.
Unset Strict Implicit.
Unset Printing Implicit Defensive.
Import GRing.Theory.
Local Open Scope ring_scope.

(* ---- sizes, parameter.c ---- *)

(* the integers of parameter.c 12-21 that describe the grid: isize, ...;
   the allocated sizes misize, ...; the loop limits pisize, ...; the mirror
   planes cisize, ...; and the boundary flags *)
Record sizes : Type := Sz {
  isize : nat; jsize : nat; ksize : nat;
  misize : nat; mjsize : nat; mksize : nat;
  pisize : nat; pjsize : nat; pksize : nat;
  cisize : nat; cjsize : nat; cksize : nat;
  use_periodic_x : bool; use_periodic_y : bool;
  xparity : int; yparity : int; zparity : int
}.

(* parameter.c 335-343: the sizes set by set_default_parameter *)
Definition default_sizes (i j k : nat) : sizes :=
  Sz i j k i j k (i - 1) (j - 1) (k - 1) (i./2) (j./2) (k./2) false false 0 0 0.

Definition is_mirror (x : int) : bool := (x == 1) || (x == -1).

(* parameter.c 402-421 *)
Definition Hz_parity (x y z : int) (s : sizes) : sizes :=
  Sz (isize s) (jsize s) (ksize s)
     (if is_mirror x then cisize s + 2 else misize s)%N
     (if is_mirror y then cjsize s + 2 else mjsize s)%N
     (if is_mirror z then cksize s + 2 else mksize s)%N
     (if is_mirror x then cisize s + 1 else pisize s)%N
     (if is_mirror y then cjsize s + 1 else pjsize s)%N
     (if is_mirror z then cksize s + 1 else pksize s)%N
     (cisize s) (cjsize s) (cksize s)
     (use_periodic_x s) (use_periodic_y s) x y z.

(* parameter.c 423-440; the absorbing layer and the wave vector are not part
   of this record *)
Definition periodic_boundary (x_on y_on : bool) (s : sizes) : sizes :=
  Sz (isize s) (jsize s) (ksize s)
     (if x_on then isize s + 2 else misize s)%N
     (if y_on then jsize s + 2 else mjsize s)%N (mksize s)
     (if x_on then isize s + 1 else pisize s)%N
     (if y_on then jsize s + 1 else pjsize s)%N (pksize s)
     (cisize s) (cjsize s) (cksize s)
     (x_on || use_periodic_x s) (y_on || use_periodic_y s)
     (xparity s) (yparity s) (zparity s).

(* parameter.c 448-464: Euclid's loop "while ((r = m % n) != 0)", run at most
   [fuel] times.  None stands for the division by zero that n = 0 causes *)
Fixpoint gcd_loop (fuel m n : nat) : option nat :=
  if n == 0%N then None else
  let r := (m %% n)%N in
  if r == 0%N then Some n else
  if fuel is f.+1 then gcd_loop f n r else None.
Definition gcd2 (m n : nat) : option nat :=
  if (m < n)%N then gcd_loop m n m else gcd_loop n m n.
(* parameter.c 444-446 *)
Definition lcm2 (m n : nat) : option nat :=
  if gcd2 m n is Some g then Some (m * n %/ g)%N else None.
(* parameter.c 442 *)
Definition lcm3 (a b c : nat) : option nat :=
  if lcm2 b c is Some d then lcm2 a d else None.

(* parameter.c 288-295: the spacings, integer quotients *)
Definition spacings (lx ly lz : nat) : option (nat * nat * nat) :=
  if lcm3 lx ly lz is Some l then Some (l %/ lx, l %/ ly, l %/ lz)%N else None.

(* parameter.c 354-357: the spacing of a layer with n grid points per period,
   l the common multiple of lattice_x, lattice_y and the largest n *)
Definition spacing_z (l n : nat) : nat := (l %/ n)%N.

(* ---- complex fields and assignments to their components ---- *)

Section YbcModel.
Variable F : fieldType.

(* the real arrays Ex, ... and the imaginary arrays iEx, ... *)
Record cst : Type := Cst { cre : state F; cim : state F }.

(* the name of an array element: imaginary?, magnetic?, component, indices.
   Components: None = x, Some false = y, Some true = z *)
Definition loc := (bool * bool * option bool * (nat * nat * nat))%type.

Definition Lx : option bool := None.
Definition Ly : option bool := Some false.
Definition Lz : option bool := Some true.
Definition Eat (im : bool) (c : option bool) (i j k : nat) : loc := (im, false, c, (i, j, k)).
Definition Hat (im : bool) (c : option bool) (i j k : nat) : loc := (im, true, c, (i, j, k)).

Definition comp (c : option bool) (v : v3 F) : F :=
  match c with None => vx v | Some false => vy v | Some true => vz v end.
Definition setc (c : option bool) (v : v3 F) (x : F) : v3 F :=
  match c with
  | None => V3 x (vy v) (vz v)
  | Some false => V3 (vx v) x (vz v)
  | Some true => V3 (vx v) (vy v) x
  end.

Definition get (S : cst) (l : loc) : F :=
  let: (im, h, c, (i, j, k)) := l in
  let s := if im then cim S else cre S in
  comp c (if h then fH s i j k else fE s i j k).

Definition putf (a : arr F) (c : option bool) (i j k : nat) (x : F) : arr F :=
  put a i j k (setc c (a i j k) x).

Definition put1s (s : state F) (h : bool) (c : option bool) (i j k : nat) (x : F) : state F :=
  if h then set_H s (putf (fH s) c i j k x) else set_E s (putf (fE s) c i j k x).

Definition put1 (S : cst) (l : loc) (x : F) : cst :=
  let: (im, h, c, (i, j, k)) := l in
  if im then Cst (cre S) (put1s (cim S) h c i j k x)
  else Cst (put1s (cre S) h c i j k x) (cim S).

(* one assignment "d = a * s + b * t ...;" *)
Definition asg := (loc * seq (F * loc))%type.
Definition rhs (S : cst) (e : seq (F * loc)) : F := \sum_(t <- e) (t.1 * get S t.2).
Definition exec1 (S : cst) (a : asg) : cst := put1 S a.1 (rhs S a.2).
Definition exec (prog : seq asg) (S : cst) : cst := foldl exec1 S prog.

(* "for (a = 1; a < n; a++) for (b = 1; b < m; b++) body" *)
Definition loop2 (n m : nat) (body : nat -> nat -> seq asg) : seq asg :=
  flatten [seq flatten [seq body a b | b <- iota 1 (m - 1)] | a <- iota 1 (n - 1)].
(* the same with the outer index starting at lo *)
Definition loop2_from (lo n m : nat) (body : nat -> nat -> seq asg) : seq asg :=
  flatten [seq flatten [seq body a b | b <- iota 1 (m - 1)] | a <- iota lo (n - lo)].

(* d = src rotated backwards / forwards by the phase: the pairs of lines
     X  = Y * cos + iY * sin;   iX = - Y * sin + iY * cos;
     X  = Y * cos - iY * sin;   iX =   Y * sin + iY * cos;  *)
Definition back_re (c s : F) (d r i : loc) : asg := (d, [:: (c, r); (s, i)]).
Definition back_im (c s : F) (d r i : loc) : asg := (d, [:: (- s, r); (c, i)]).
Definition forw_re (c s : F) (d r i : loc) : asg := (d, [:: (c, r); (- s, i)]).
Definition forw_im (c s : F) (d r i : loc) : asg := (d, [:: (s, r); (c, i)]).
Definition copy (d r : loc) : asg := (d, [:: (1, r)]).
Definition mirror (d r : loc) : asg := (d, [:: (-1, r)]).
Definition zero (d : loc) : asg := (d, [::]).

(* wave vectors; cos and sin of wave_vector_x * 2 pi, wave_vector_y * 2 pi and
   of the two angles of the triangular lattice, timeupdate.c 1064-1066,
   1139-1144 *)
Record phases : Type := Ph {
  wave_x : F; wave_y : F;
  cos_x : F; sin_x : F; cos_y : F; sin_y : F;
  cos_1 : F; sin_1 : F; cos_2 : F; sin_2 : F
}.

Variables (p : par F) (z : sizes) (w : phases).

(* timeupdate.c 1058-1078 (and 1080-1101, Xwall, the same) *)
Definition E_periodic_x : seq asg :=
  loop2 (pjsize z) (pksize z) (fun j k =>
    [:: back_re (cos_x w) (sin_x w) (Eat false Lx 0 j k) (Eat false Lx (isize z) j k) (Eat true Lx (isize z) j k);
        forw_re (cos_x w) (sin_x w) (Eat false Ly (isize z + 1) j k) (Eat false Ly 1 j k) (Eat true Ly 1 j k);
        forw_re (cos_x w) (sin_x w) (Eat false Lz (isize z + 1) j k) (Eat false Lz 1 j k) (Eat true Lz 1 j k);
        back_im (cos_x w) (sin_x w) (Eat true Lx 0 j k) (Eat false Lx (isize z) j k) (Eat true Lx (isize z) j k);
        forw_im (cos_x w) (sin_x w) (Eat true Ly (isize z + 1) j k) (Eat false Ly 1 j k) (Eat true Ly 1 j k);
        forw_im (cos_x w) (sin_x w) (Eat true Lz (isize z + 1) j k) (Eat false Lz 1 j k) (Eat true Lz 1 j k)]).

(* timeupdate.c 1103-1123 *)
Definition E_periodic_y : seq asg :=
  loop2 (pisize z) (pksize z) (fun i k =>
    [:: back_re (cos_y w) (sin_y w) (Eat false Ly i 0 k) (Eat false Ly i (jsize z) k) (Eat true Ly i (jsize z) k);
        forw_re (cos_y w) (sin_y w) (Eat false Lx i (jsize z + 1) k) (Eat false Lx i 1 k) (Eat true Lx i 1 k);
        forw_re (cos_y w) (sin_y w) (Eat false Lz i (jsize z + 1) k) (Eat false Lz i 1 k) (Eat true Lz i 1 k);
        back_im (cos_y w) (sin_y w) (Eat true Ly i 0 k) (Eat false Ly i (jsize z) k) (Eat true Ly i (jsize z) k);
        forw_im (cos_y w) (sin_y w) (Eat true Lx i (jsize z + 1) k) (Eat false Lx i 1 k) (Eat true Lx i 1 k);
        forw_im (cos_y w) (sin_y w) (Eat true Lz i (jsize z + 1) k) (Eat false Lz i 1 k) (Eat true Lz i 1 k)]).

(* timeupdate.c 1134: Uxh = 0.5 * isize, an int *)
Definition Uxh : nat := (isize z)./2.

(* timeupdate.c 1125-1174: one pass of the two loops; d is the index of the
   cell behind the wall, f of the cell in front of it *)
Definition E_Ywall_body (c s : F) (i f k : nat) : seq asg :=
  [:: back_re c s (Eat false Ly i 0 k) (Eat false Ly f (jsize z) k) (Eat true Ly f (jsize z) k);
      forw_re c s (Eat false Lx f (jsize z + 1) k) (Eat false Lx i 1 k) (Eat true Lx i 1 k);
      forw_re c s (Eat false Lz f (jsize z + 1) k) (Eat false Lz i 1 k) (Eat true Lz i 1 k);
      back_im c s (Eat true Ly i 0 k) (Eat false Ly f (jsize z) k) (Eat true Ly f (jsize z) k);
      forw_im c s (Eat true Lx f (jsize z + 1) k) (Eat false Lx i 1 k) (Eat true Lx i 1 k);
      forw_im c s (Eat true Lz f (jsize z + 1) k) (Eat false Lz i 1 k) (Eat true Lz i 1 k)].
Definition E_periodic_Ywall : seq asg :=
  loop2 (pisize z - Uxh) (pksize z)
    (fun i k => E_Ywall_body (cos_1 w) (sin_1 w) i (i + Uxh) k) ++
  loop2_from (pisize z - Uxh) (pisize z) (pksize z)
    (fun i k => E_Ywall_body (cos_2 w) (sin_2 w) i (i - Uxh) k).

(* timeupdate.c 1176-1197 (and 1199-1220, Xwall, the same) *)
Definition H_periodic_x : seq asg :=
  loop2 (pjsize z) (pksize z) (fun j k =>
    [:: forw_re (cos_x w) (sin_x w) (Hat false Lx (isize z + 1) j k) (Hat false Lx 1 j k) (Hat true Lx 1 j k);
        back_re (cos_x w) (sin_x w) (Hat false Ly 0 j k) (Hat false Ly (isize z) j k) (Hat true Ly (isize z) j k);
        back_re (cos_x w) (sin_x w) (Hat false Lz 0 j k) (Hat false Lz (isize z) j k) (Hat true Lz (isize z) j k);
        forw_im (cos_x w) (sin_x w) (Hat true Lx (isize z + 1) j k) (Hat false Lx 1 j k) (Hat true Lx 1 j k);
        back_im (cos_x w) (sin_x w) (Hat true Ly 0 j k) (Hat false Ly (isize z) j k) (Hat true Ly (isize z) j k);
        back_im (cos_x w) (sin_x w) (Hat true Lz 0 j k) (Hat false Lz (isize z) j k) (Hat true Lz (isize z) j k)]).

(* timeupdate.c 1222-1242 *)
Definition H_periodic_y : seq asg :=
  loop2 (pisize z) (pksize z) (fun i k =>
    [:: forw_re (cos_y w) (sin_y w) (Hat false Ly i (jsize z + 1) k) (Hat false Ly i 1 k) (Hat true Ly i 1 k);
        back_re (cos_y w) (sin_y w) (Hat false Lx i 0 k) (Hat false Lx i (jsize z) k) (Hat true Lx i (jsize z) k);
        back_re (cos_y w) (sin_y w) (Hat false Lz i 0 k) (Hat false Lz i (jsize z) k) (Hat true Lz i (jsize z) k);
        forw_im (cos_y w) (sin_y w) (Hat true Ly i (jsize z + 1) k) (Hat false Ly i 1 k) (Hat true Ly i 1 k);
        back_im (cos_y w) (sin_y w) (Hat true Lx i 0 k) (Hat false Lx i (jsize z) k) (Hat true Lx i (jsize z) k);
        back_im (cos_y w) (sin_y w) (Hat true Lz i 0 k) (Hat false Lz i (jsize z) k) (Hat true Lz i (jsize z) k)]).

(* timeupdate.c 1244-1294 *)
Definition H_Ywall_body (c s : F) (i f k : nat) : seq asg :=
  [:: forw_re c s (Hat false Ly f (jsize z + 1) k) (Hat false Ly i 1 k) (Hat true Ly i 1 k);
      back_re c s (Hat false Lx i 0 k) (Hat false Lx f (jsize z) k) (Hat true Lx f (jsize z) k);
      back_re c s (Hat false Lz i 0 k) (Hat false Lz f (jsize z) k) (Hat true Lz f (jsize z) k);
      forw_im c s (Hat true Ly f (jsize z + 1) k) (Hat false Ly i 1 k) (Hat true Ly i 1 k);
      back_im c s (Hat true Lx i 0 k) (Hat false Lx f (jsize z) k) (Hat true Lx f (jsize z) k);
      back_im c s (Hat true Lz i 0 k) (Hat false Lz f (jsize z) k) (Hat true Lz f (jsize z) k)].
Definition H_periodic_Ywall : seq asg :=
  loop2 (pisize z - Uxh) (pksize z)
    (fun i k => H_Ywall_body (cos_1 w) (sin_1 w) i (i + Uxh) k) ++
  loop2_from (pisize z - Uxh) (pisize z) (pksize z)
    (fun i k => H_Ywall_body (cos_2 w) (sin_2 w) i (i - Uxh) k).

(* timeupdate.c 1296-1305 (and 1307-1317) *)
Definition E_Gamma_x : seq asg :=
  loop2 (pjsize z) (pksize z) (fun j k =>
    [:: copy (Eat false Lx 0 j k) (Eat false Lx (isize z) j k);
        copy (Eat false Ly (isize z + 1) j k) (Eat false Ly 1 j k);
        copy (Eat false Lz (isize z + 1) j k) (Eat false Lz 1 j k)]).
(* timeupdate.c 1319-1328 *)
Definition E_Gamma_y : seq asg :=
  loop2 (pisize z) (pksize z) (fun i k =>
    [:: copy (Eat false Ly i 0 k) (Eat false Ly i (jsize z) k);
        copy (Eat false Lx i (jsize z + 1) k) (Eat false Lx i 1 k);
        copy (Eat false Lz i (jsize z + 1) k) (Eat false Lz i 1 k)]).
(* timeupdate.c 1330-1351 *)
Definition E_GYwall_body (i f k : nat) : seq asg :=
  [:: copy (Eat false Ly i 0 k) (Eat false Ly f (jsize z) k);
      copy (Eat false Lx f (jsize z + 1) k) (Eat false Lx i 1 k);
      copy (Eat false Lz f (jsize z + 1) k) (Eat false Lz i 1 k)].
Definition E_Gamma_Ywall : seq asg :=
  loop2 (pisize z - Uxh) (pksize z) (fun i k => E_GYwall_body i (i + Uxh) k) ++
  loop2_from (pisize z - Uxh) (pisize z) (pksize z)
    (fun i k => E_GYwall_body i (i - Uxh) k).
(* timeupdate.c 1353-1362 (and 1364-1374) *)
Definition H_Gamma_x : seq asg :=
  loop2 (pjsize z) (pksize z) (fun j k =>
    [:: copy (Hat false Lx (isize z + 1) j k) (Hat false Lx 1 j k);
        copy (Hat false Ly 0 j k) (Hat false Ly (isize z) j k);
        copy (Hat false Lz 0 j k) (Hat false Lz (isize z) j k)]).
(* timeupdate.c 1376-1385 *)
Definition H_Gamma_y : seq asg :=
  loop2 (pisize z) (pksize z) (fun i k =>
    [:: copy (Hat false Ly i (jsize z + 1) k) (Hat false Ly i 1 k);
        copy (Hat false Lx i 0 k) (Hat false Lx i (jsize z) k);
        copy (Hat false Lz i 0 k) (Hat false Lz i (jsize z) k)]).
(* timeupdate.c 1387-1408 *)
Definition H_GYwall_body (i f k : nat) : seq asg :=
  [:: copy (Hat false Ly f (jsize z + 1) k) (Hat false Ly i 1 k);
      copy (Hat false Lx i 0 k) (Hat false Lx f (jsize z) k);
      copy (Hat false Lz i 0 k) (Hat false Lz f (jsize z) k)].
Definition H_Gamma_Ywall : seq asg :=
  loop2 (pisize z - Uxh) (pksize z) (fun i k => H_GYwall_body i (i + Uxh) k) ++
  loop2_from (pisize z - Uxh) (pisize z) (pksize z)
    (fun i k => H_GYwall_body i (i - Uxh) k).

(* timeupdate.c 854-899, real (im = false), and 901-947, imaginary *)
Definition Ez_parity_update (im : bool) : seq asg :=
  (if xparity z == 1 then loop2 (pjsize z) (pksize z) (fun j k =>
     [:: copy (Eat im Lx (cisize z) j k) (Eat im Lx (cisize z - 1) j k);
         zero (Eat im Ly (cisize z) j k); zero (Eat im Lz (cisize z) j k)]) else [::]) ++
  (if xparity z == -1 then loop2 (pjsize z) (pksize z) (fun j k =>
     [:: mirror (Eat im Lx (cisize z) j k) (Eat im Lx (cisize z - 1) j k)]) else [::]) ++
  (if yparity z == 1 then loop2 (pksize z) (pisize z) (fun k i =>
     [:: copy (Eat im Ly i (cjsize z) k) (Eat im Ly i (cjsize z - 1) k);
         zero (Eat im Lx i (cjsize z) k); zero (Eat im Lz i (cjsize z) k)]) else [::]) ++
  (if yparity z == -1 then loop2 (pksize z) (pisize z) (fun k i =>
     [:: mirror (Eat im Ly i (cjsize z) k) (Eat im Ly i (cjsize z - 1) k)]) else [::]) ++
  (if zparity z == 1 then loop2 (pisize z) (pjsize z) (fun i j =>
     [:: copy (Eat im Lz i j (cksize z)) (Eat im Lz i j (cksize z - 1));
         zero (Eat im Lx i j (cksize z)); zero (Eat im Ly i j (cksize z))]) else [::]) ++
  (if zparity z == -1 then loop2 (pisize z) (pjsize z) (fun i j =>
     [:: mirror (Eat im Lz i j (cksize z)) (Eat im Lz i j (cksize z - 1))]) else [::]).

(* timeupdate.c 949-1002, real, and 1004-1056, imaginary *)
Definition Hz_parity_update (im : bool) : seq asg :=
  (if xparity z == 1 then loop2 (pjsize z) (pksize z) (fun j k =>
     [:: copy (Hat im Ly (cisize z) j k) (Hat im Ly (cisize z - 1) j k);
         copy (Hat im Lz (cisize z) j k) (Hat im Lz (cisize z - 1) j k);
         zero (Hat im Lx (cisize z) j k)]) else [::]) ++
  (if xparity z == -1 then loop2 (pjsize z) (pksize z) (fun j k =>
     [:: mirror (Hat im Ly (cisize z) j k) (Hat im Ly (cisize z - 1) j k);
         mirror (Hat im Lz (cisize z) j k) (Hat im Lz (cisize z - 1) j k)]) else [::]) ++
  (if yparity z == 1 then loop2 (pksize z) (pisize z) (fun k i =>
     [:: copy (Hat im Lz i (cjsize z) k) (Hat im Lz i (cjsize z - 1) k);
         copy (Hat im Lx i (cjsize z) k) (Hat im Lx i (cjsize z - 1) k);
         zero (Hat im Ly i (cjsize z) k)]) else [::]) ++
  (if yparity z == -1 then loop2 (pksize z) (pisize z) (fun k i =>
     [:: mirror (Hat im Lz i (cjsize z) k) (Hat im Lz i (cjsize z - 1) k);
         mirror (Hat im Lx i (cjsize z) k) (Hat im Lx i (cjsize z - 1) k)]) else [::]) ++
  (if zparity z == 1 then loop2 (pisize z) (pjsize z) (fun i j =>
     [:: copy (Hat im Lx i j (cksize z)) (Hat im Lx i j (cksize z - 1));
         copy (Hat im Ly i j (cksize z)) (Hat im Ly i j (cksize z - 1));
         zero (Hat im Lz i j (cksize z))]) else [::]) ++
  (if zparity z == -1 then loop2 (pisize z) (pjsize z) (fun i j =>
     [:: mirror (Hat im Lx i j (cksize z)) (Hat im Lx i j (cksize z - 1));
         mirror (Hat im Ly i j (cksize z)) (Hat im Ly i j (cksize z - 1))]) else [::]).

(* wave_vector_x != 0.0 || wave_vector_y != 0.0 *)
Definition bloch : bool := (wave_x w != 0) || (wave_y w != 0).
(* timeupdate.c 262-264: are the imaginary fields in use? *)
Definition complex : bool := (use_periodic_x z || use_periodic_y z) && bloch.

(* timeupdate.c 289-306: everything between the electric and the magnetic
   loops.  tri = true is propagate_tri, 430-447 *)
Definition E_boundary (tri : bool) : seq asg :=
  (if use_periodic_x z && bloch then E_periodic_x else [::]) ++
  (if use_periodic_y z && bloch then
     (if tri then E_periodic_Ywall else E_periodic_y) else [::]) ++
  (if use_periodic_x z && ~~ bloch then E_Gamma_x else [::]) ++
  (if use_periodic_y z && ~~ bloch then
     (if tri then E_Gamma_Ywall else E_Gamma_y) else [::]) ++
  Ez_parity_update false ++
  (if complex then Ez_parity_update true else [::]).
(* timeupdate.c 347-364 (and 490-507) *)
Definition H_boundary (tri : bool) : seq asg :=
  (if use_periodic_x z && bloch then H_periodic_x else [::]) ++
  (if use_periodic_y z && bloch then
     (if tri then H_periodic_Ywall else H_periodic_y) else [::]) ++
  (if use_periodic_x z && ~~ bloch then H_Gamma_x else [::]) ++
  (if use_periodic_y z && ~~ bloch then
     (if tri then H_Gamma_Ywall else H_Gamma_y) else [::]) ++
  Hz_parity_update false ++
  (if complex then Hz_parity_update true else [::]).

(* timeupdate.c 231-368 propagate and 373-511 propagate_tri *)
Definition grid_cells := cells (pisize z) (pjsize z) (pksize z).
Definition E_half (S : cst) : cst :=
  Cst (sweep (E_cell p) grid_cells (cre S))
      (if complex then sweep (iE_cell p) grid_cells (cim S) else cim S).
Definition H_half (S : cst) : cst :=
  Cst (sweep (H_cell p) grid_cells (cre S))
      (if complex then sweep (H_cell p) grid_cells (cim S) else cim S).
Definition propagate_bc (tri : bool) (S : cst) : cst :=
  exec (H_boundary tri) (H_half (exec (E_boundary tri) (E_half S))).

End YbcModel.
