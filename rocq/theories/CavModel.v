(** Model of the cavity constructor, openms/lib/boson.py 529-755
    ([Boson.__init__]).  Real numbers; numpy's sqrt of a negative number (nan)
    is not represented, statements about square roots assume non-negative
    frequencies.  The molecule checks, the origin shift and the attributes
    copied from the molecule are left out. *)
From Coq Require Import Reals ZArith.
From Verif Require Import Base.
Open Scope R_scope.

(** ** Arguments *)
(** omega: a python float, a numpy.float64 (a subclass of float with a size),
    a list, a one-dimensional ndarray, anything else *)
Inductive omega_arg := OFloat (x : R) | ONpFloat (x : R) | OList (l : list R) | OArr (l : list R) | OOther.
Inductive gfac_arg := GNone | GList (l : list R) | GArr (l : list R) | GOther.
(** vec: a list of rows, an ndarray of floats or of integers (rows of equal
    length [cols]), anything else *)
Inductive vec_arg := VList (l : list (list R)) | VArr (cols : nat) (l : list (list R))
  | VInt (cols : nat) (l : list (list Z)) | VOther.
Inductive nb_arg := NInt (z : Z) | NList (l : list Z) | NArr (l : list Z) | NOther.
Inductive z_arg := ZNone | ZList (l : list R) | ZArr (l : list R) | ZOther.
Record args := Args { a_omega : omega_arg; a_vec : vec_arg; a_gfac : gfac_arg; a_nboson : nb_arg;
  a_use_cs : bool; a_z : z_arg; a_var : option (list R) }.

(** ** The object; [caller_vec] is the caller's vec argument afterwards *)
Record boson := Boson { omega : list R; nmodes : nat; gfac : list R; vec : list (list R); nboson : list Z;
  use_cs : bool; z_alpha : list R; var : list R; bilinear : list R; self : list R; res_ : list R;
  coeff_size : Z; coeff0 : R; caller_vec : vec_arg }.

(** numpy.dot of a row with itself *)
Definition norm2 (v : list R) : R := fold_right Rplus 0 (map (fun x => x * x) v).
(** the guard at line 652 *)
Definition tiny : R := / 10 ^ 15.
(** lines 649-653 for one row of floats *)
Definition normalise (v : list R) : list R :=
  let c := sqrt (norm2 v) in if Rlt_dec tiny c then map (fun x => x / c) v else v.
(** the same for a row of an integer array: the quotients are truncated
    towards zero when stored *)
Definition trunc (x : R) : Z := if Rle_dec 0 x then Int_part x else (- Int_part (- x))%Z.
Definition normalise_int (v : list Z) : list Z :=
  let c := sqrt (norm2 (map IZR v)) in if Rlt_dec tiny c then map (fun x => trunc (IZR x / c)) v else v.

(** lines 581-608: self.omega (None for a zero-dimensional array), nmodes;
    [nb] is looked at for its length only *)
Definition take_omega (o : omega_arg) (nb : nb_arg) : res (option (list R) * nat) :=
  let chk n := match nb with NList l => if Nat.eqb (length l) n then Ok tt else Err ValueError | _ => Ok tt end in
  match o with
  | OOther => Err ValueError
  | OFloat _ => Err AttributeError
  | ONpFloat x => match nb with NList _ => Err TypeError | _ => Ok (None, 1%nat) end
  | OList l | OArr l => rbind (chk (length l)) (fun _ => Ok (Some l, length l))
  end.
(** lines 611-631 *)
Definition take_gfac (g : gfac_arg) (n : nat) : res (option (list R)) :=
  match g with
  | GNone => Ok None
  | GOther => Err ValueError
  | GList l | GArr l => if Nat.eqb (length l) n then Ok (Some l) else Err ValueError
  end.
(** lines 634-659: the norms, the stored vectors and the caller's argument.
    A list is converted to a new array; an array is normalised in place. *)
Definition take_vec (v : vec_arg) (n : nat) : res (list R * list (list R) * vec_arg) :=
  match v with
  | VOther => Err ValueError
  | VList l => if Nat.eqb (length l) n && negb (Nat.eqb n 0) && forallb (fun r => Nat.eqb (length r) 3) l
      then Ok (map (fun r => sqrt (norm2 r)) l, map normalise l, VList l) else Err ValueError
  | VArr cols l => if Nat.eqb (length l) n && Nat.eqb cols 3
      then Ok (map (fun r => sqrt (norm2 r)) l, map normalise l, VArr cols (map normalise l)) else Err ValueError
  | VInt cols l => if Nat.eqb (length l) n && Nat.eqb cols 3
      then Ok (map (fun r => sqrt (norm2 (map IZR r))) l, map (fun r => map IZR (normalise_int r)) l,
               VInt cols (map normalise_int l)) else Err ValueError
  end.
(** lines 661-687 *)
Definition take_nboson (nb : nb_arg) (n : nat) : res (list Z) :=
  let chk l := if Nat.eqb (length l) n then if forallb (Z.ltb 0) l then Ok l else Err ValueError else Err ValueError in
  match nb with
  | NInt z => chk (repeat z n)
  | NList l | NArr l => chk l
  | NOther => Err ValueError
  end.
(** lines 690-708 *)
Definition take_z (cs : bool) (z : z_arg) (n : nat) : res (bool * list R) :=
  match z with
  | ZNone => Ok (cs, repeat 0 n)
  | ZOther => Err ValueError
  | ZList l | ZArr l => if Nat.eqb (length l) n then Ok (false, l) else Err ValueError
  end.
(** lines 715-720 *)
Definition take_var (v : option (list R)) (n : nat) : list R := match v with Some l => l | None => repeat (1/2) n end.

(** the loop of lines 740-745 *)
Definition pre_step (om : option (list R)) (g var : list R) (a : nat) : res (R * R * R) :=
  rbind (index g a) (fun ga =>
  rbind (match om with Some l => index l a | None => Err IndexError end) (fun oa =>
  rbind (index var a) (fun va => Ok (ga * sqrt (1/2 * oa), 1 - va, 1/2 * ga ^ 2)))).
Definition prefactors (om : option (list R)) (g var : list R) (n : nat) : res (list (R * R * R)) :=
  rmapM (pre_step om g var) (seq 0 n).

(** the constructor; lines 753-755 fail for an empty coefficient matrix *)
Definition make (x : args) : res boson :=
  rbind (take_omega (a_omega x) (a_nboson x)) (fun on => let '(om, n) := on in
  rbind (take_gfac (a_gfac x) n) (fun g0 =>
  rbind (take_vec (a_vec x) n) (fun vv => let '(norms, v, cv) := vv in
  let g := match g0 with Some g => g | None => norms end in
  rbind (take_nboson (a_nboson x) n) (fun nb =>
  rbind (take_z (a_use_cs x) (a_z x) n) (fun cz => let '(cs, z) := cz in
  let va := take_var (a_var x) n in
  rbind (prefactors om g va n) (fun p =>
  let size := fold_right Z.add 0%Z nb in
  if Z.eqb size 0 then Err IndexError else
  Ok (Boson match om with Some l => l | None => [] end n g v nb cs z va
        (map (fun t => fst (fst t)) p) (map snd p) (map (fun t => snd (fst t)) p)
        size (1 / sqrt (IZR size)) cv))))))).
