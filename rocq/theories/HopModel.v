(** Model of the lattice hopping matrices of openms/models/hubbard.py and
    openms/models/hh_model.py, of the reference Hamiltonian that get_mo hands
    to the mean-field solver, and of the electronic Hamiltonian of
    openms/qmd/sh.py.  Hopping amplitudes are integers (the code only writes
    -1 and -2).  A matrix is a function of two indices together with its size;
    writing outside the size raises as numpy does. *)
From Verif Require Import Base.
Open Scope Z_scope.

Definition mat := nat -> nat -> Z.
Definition zeros : mat := fun _ _ => 0.

(** numpy's index rule for an axis of length [L]: negative indices count from
    the end. *)
Definition axis (L : nat) (i : Z) : res nat :=
  if (0 <=? i) && (i <? Z.of_nat L) then Ok (Z.to_nat i)
  else if (i <? 0) && (0 <=? Z.of_nat L + i) then Ok (Z.to_nat (Z.of_nat L + i))
  else Err IndexError.
Definition put (t : mat) (i j : nat) (v : Z) : mat :=
  fun a b => if (Nat.eqb a i && Nat.eqb b j)%bool then v else t a b.
(** [t[i, j] = v] *)
Definition set2 (L : nat) (t : mat) (i j : Z) (v : Z) : res mat :=
  rbind (axis L i) (fun i' => rbind (axis L j) (fun j' => Ok (put t i' j' v))).
(** [t[i, j] += v] *)
Definition add2 (L : nat) (t : mat) (i j : Z) (v : Z) : res mat :=
  rbind (axis L i) (fun i' => rbind (axis L j) (fun j' => Ok (put t i' j' (t i' j' + v)))).

(** boundary condition argument: "p", None or any other value *)
Inductive bcond := Periodic | Open_ | Other.

(** Hubbard1D._nn, hubbard.py 40-51, and HHModel._nn, hh_model.py 131-142 (the
    same text).  The bare Exception of the last branch is the value
    RuntimeError. *)
Definition nn (bc : bcond) (L : nat) (i : nat) : res (Z * Z) :=
  let L' := Z.of_nat L in let i' := Z.of_nat i in
  if L' <? i' then Err AssertionError else
  match bc with
  | Periodic => Ok (if i' =? 0 then L' - 1 else i' - 1, if i' =? L' - 1 then 0 else i' + 1)
  | Open_ => Ok (if i' =? 0 then i' + 1 else i' - 1, if i' =? L' - 1 then i' - 1 else i' + 1)
  | Other => Err RuntimeError
  end.

(** the loop of tmatS, hubbard.py 58-61 = hh_model.py 149-152 *)
Fixpoint hop_loop (bc : bcond) (L : nat) (is : list nat) (t : mat) : res mat :=
  match is with
  | [] => Ok t
  | i :: r => rbind (nn bc L i) (fun n =>
      rbind (set2 L t (Z.of_nat i) (fst n) (-1)) (fun t1 =>
      rbind (set2 L t1 (Z.of_nat i) (snd n) (-1)) (fun t2 => hop_loop bc L r t2)))
  end.

(** Hubbard1D.tmatS, hubbard.py 54-62 *)
Definition tmatS (bc : bcond) (L : nat) : res mat := hop_loop bc L (seq 0 L) zeros.

(** HHModel.tmatS, hh_model.py 145-156: two more writes when L == 2 *)
Definition hh_tmatS (bc : bcond) (L : nat) : res mat :=
  rbind (hop_loop bc L (seq 0 L) zeros) (fun t =>
    if Nat.eqb L 2 then rbind (add2 L t 0 (-1) (-1)) (fun t1 => add2 L t1 (-1) 0 (-1)) else Ok t).

(** the chain loop of get_mo, hh_model.py 31-32 *)
Fixpoint chain_loop (L : nat) (is : list nat) (t : mat) : res mat :=
  match is with
  | [] => Ok t
  | i :: r => rbind (set2 L t (Z.of_nat i) (Z.of_nat i + 1) (-1)) (fun t1 =>
      rbind (set2 L t1 (Z.of_nat i + 1) (Z.of_nat i) (-1)) (fun t2 => chain_loop L r t2))
  end.
(** h1 of get_mo, hh_model.py 30-35 *)
Definition mo_h1 (bc : bcond) (L : nat) : res mat :=
  rbind (chain_loop L (seq 0 (L - 1)) zeros) (fun t =>
    match bc with
    | Periodic => rbind (add2 L t (-1) 0 (-1)) (fun t1 => add2 L t1 0 (-1) (-1))
    | _ => Ok t
    end).

(** eri of get_mo, hh_model.py 36-44: the repulsion is written inside the
    breaksym branch only. *)
Definition mo_eri (L : nat) (U : Q) (breaksym : bool) (i j k l : nat) : Q :=
  if breaksym then
    if (Nat.ltb i L && Nat.eqb i j && Nat.eqb j k && Nat.eqb k l)%bool then U else 0%Q
  else 0%Q.
(** initial densities, hh_model.py 39-50 (diagonals) *)
Definition mo_guess (breaksym : bool) (i : nat) : Q * Q :=
  if breaksym then (if Nat.even i then (1, 0) else (0, 1))%Q else (1 # 2, 1 # 2)%Q.

(** get_mo, hh_model.py 22-56.  [solver] stands for the unrestricted
    mean-field calculation: electrons, core Hamiltonian, repulsion and guess
    to orbitals. *)
Definition get_mo {O : Type}
    (solver : Z -> mat -> (nat -> nat -> nat -> nat -> Q) -> (nat -> Q * Q) -> O)
    (L : nat) (N : Z) (U : Q) (breaksym : bool) (bc : bcond) : res O :=
  rbind (mo_h1 bc L) (fun h1 =>
    if N mod 2 =? 0 then Ok (solver N h1 (mo_eri L U breaksym) (mo_guess breaksym))
    else Err AssertionError).

(** SH.get_H, sh.py 119-139.  One molecule: [e] is the row energies[i], [d]
    the row nact[i], [h] the uninitialised slice of np.empty. *)
Definition hmat := nat -> nat -> Q.
Definition hput (t : hmat) (i j : nat) (v : Q) : hmat :=
  fun a b => if (Nat.eqb a i && Nat.eqb b j)%bool then v else t a b.
Fixpoint sh_inner (d : list Q) (j : nat) (ks : list nat) (st : hmat * nat) : res (hmat * nat) :=
  match ks with
  | [] => Ok st
  | k :: r => rbind (index d (snd st)) (fun x =>
      sh_inner d j r (hput (hput (fst st) j k x) k j (- x)%Q, S (snd st)))
  end.
Fixpoint sh_outer (n : nat) (e d : list Q) (js : list nat) (st : hmat * nat) : res (hmat * nat) :=
  match js with
  | [] => Ok st
  | j :: r => rbind (index e j) (fun x =>
      rbind (sh_inner d j (seq j (n - j)) (hput (fst st) j j x, snd st)) (sh_outer n e d r))
  end.
Definition get_H1 (n : nat) (e d : list Q) (h : hmat) : res hmat :=
  rmap fst (sh_outer n e d (seq 0 n) (h, O)).
Definition get_H (n : nat) (mols : list (list Q * list Q * hmat)) : res (list hmat) :=
  rmapM (fun m => get_H1 n (fst (fst m)) (snd (fst m)) (snd m)) mols.

(** SH.get_coef_dot, sh.py 91-109, for one molecule once curr_ham is current:
    - i H c, complex numbers as pairs *)
Definition cplx := (Q * Q)%type.
Definition coef_dot (n : nat) (h : hmat) (c : nat -> cplx) : nat -> cplx :=
  fun j => (qsum (map (fun k => h j k * snd (c k)) (seq 0 n)),
            - qsum (map (fun k => h j k * fst (c k)) (seq 0 n)))%Q.
