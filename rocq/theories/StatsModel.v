(** Model of the data analysis of openms/qmc/tools.py (597-832): tail
    averages, outlier removal, automatic windowing and blocking.  Data are
    lists of exact reals; an undefined floating-point result (nan) is [None]. *)
From Coq Require Import Reals String.
From Verif Require Import Base.
Open Scope R_scope.

(** numpy.mean and numpy.std of a non-empty array *)
Definition rsum (l : list R) : R := fold_right Rplus 0 l.
Definition mean (l : list R) : R := rsum l / INR (List.length l).
Definition variance (l : list R) : R := mean (map (fun x => (x - mean l) * (x - mean l)) l).
Definition std (l : list R) : R := sqrt (variance l).
(** [x[-m:]] for m >= 1 *)
Definition last_n {A} (m : nat) (l : list A) : list A := skipn (List.length l - m) l.

(** tools.py:597-620, [get_mean_std]; the energies are given by their real
    parts (line 617).  For no data the mean is nan. *)
Definition get_mean_std (energies : list R) (N : Z) : res (option (R * R)) :=
  if Z.eqb N 0 then Err ZeroDivisionError else
  let m := Z.max 1 (Z.of_nat (List.length energies) / N) in
  match last_n (Z.to_nat m) energies with
  | [] => Ok None
  | l => Ok (Some (mean l, std l))
  end.

(** tools.py:740-744: the score; 0/0 gives nan, which is not below anything *)
Definition zscore (data : list R) (x : R) : option R :=
  if Req_EM_T (std data) 0 then None else Some (Rabs ((x - mean data) / std data)).
Definition below (z : option R) (t : R) : bool :=
  match z with Some v => if Rlt_dec v t then true else false | None => false end.
(** numpy.percentile(data, 100 a / 4) with linear interpolation, on sorted data *)
Fixpoint insert (x : R) (l : list R) : list R :=
  match l with [] => [x] | y :: r => if Rle_dec x y then x :: l else y :: insert x r end.
Fixpoint sort (l : list R) : list R := match l with [] => [] | x :: r => insert x (sort r) end.
Definition quartile (a : nat) (data : list R) : R :=
  let s := sort data in let p := (a * (List.length data - 1))%nat in
  let k := (p / 4)%nat in
  nth k s 0 + INR (p mod 4) / 4 * (nth (S k) s 0 - nth k s 0).
(** tools.py:721-755, [remove_outliers]; for no data [percentile] raises *)
Definition remove_outliers (data : list R) (method : string) (threshold : R) : res (list R) :=
  if String.eqb method "zscore" then Ok (filter (fun x => below (zscore data x) threshold) data)
  else if String.eqb method "iqr" then
    match data with
    | [] => Err IndexError
    | _ =>
      let q1 := quartile 1 data in let q3 := quartile 3 data in
      let iqr := q3 - q1 in
      Ok (filter (fun x => (if Rle_dec (q1 - threshold * iqr) x then true else false)
                        && (if Rle_dec x (q3 + threshold * iqr) then true else false))%bool data)
    end
  else Err ValueError.

(** tools.py:666-690, [auto_window].  [numpy.argmin] of a boolean array is the
    first False, or 0 when there is none. *)
Fixpoint first_false (l : list bool) : option nat :=
  match l with [] => None | b :: r => if b then option_map S (first_false r) else Some 0%nat end.
Definition argmin (l : list bool) : nat := match first_false l with Some k => k | None => 0%nat end.
Definition mask (taus : list R) (c : R) : list bool :=
  map (fun k => if Rlt_dec (INR k) (c * nth k taus 0) then true else false) (seq 0 (List.length taus)).
Definition auto_window (taus : list R) (c : R) : Z :=
  let m := mask taus c in
  if existsb (fun b => b) m then Z.of_nat (argmin m) else (Z.of_nat (List.length taus) - 1)%Z.

(** tools.py:818-823: blocks of the cleaned series *)
Definition slice {A} (l : list A) (i j : nat) : list A := firstn (j - i) (skipn i l).
Definition blocks (y : list R) (bs : nat) (nblocks : nat) : list (list R) :=
  map (fun i => slice y (i * bs) ((i + 1) * bs)) (seq 0 nblocks).
(** tools.py:818-832: (average, error), number of blocks.  A negative block
    size gives a negative number of blocks, an empty range and nan; so does
    a block size above the number of samples. *)
Definition block_analysis (y : list R) (bs : Z) : res (option (R * R) * Z) :=
  if Z.eqb bs 0 then Err ZeroDivisionError else
  let nb := (Z.of_nat (List.length y) / bs)%Z in
  match map mean (blocks y (Z.to_nat bs) (Z.to_nat nb)) with
  | [] => Ok (None, nb)
  | yb => Ok (Some (mean yb, std yb / sqrt (IZR nb)), nb)
  end.
(** smallest integer not below r *)
Definition ceil (r : R) : Z := (- Int_part (- r))%Z.
(** tools.py:626-664 and 692-717, [get_autocorr_time].  The autocorrelation
    computed by Fourier transforms is written as the sum it equals (proved in
    AcfProofs.v); its normalisation by 4n cancels in the division by the value
    at lag 0, which is 0/0 = nan when that vanishes. *)
Definition deviations (y : list R) : list R := map (fun x => x - mean y) y.
Definition corr (d : list R) (k : nat) : R :=
  rsum (map (fun i => nth i d 0 * nth (i + k) d 0) (seq 0 (List.length d - k))).
Definition taus (y : list R) : list R :=
  let d := deviations y in
  map (fun k => 2 * rsum (map (fun j => corr d j / corr d 0) (seq 0 (S k))) - 1) (seq 0 (List.length y)).
Definition get_autocorr_time (y : list R) (c : R) : option R :=
  if Req_EM_T (corr (deviations y) 0) 0 then None
  else Some (nth (Z.to_nat (auto_window (taus y) c)) (taus y) 0).
(** tools.py:759-832.  Only the first autocorrelation time is used (line 819),
    computed from the whole series (812-815 with i = 0), c = 5.  For
    no samples log2 is -inf and [int] raises; for one there is no time; [int]
    of nan raises. *)
Definition analysis_autocorr (y : list R) (method : string) (threshold : R)
  : res (option (R * R) * Z * Z) :=
  rbind (remove_outliers y method threshold) (fun yc =>
  if Nat.eqb (List.length yc) 0 then Err OverflowError
  else if Nat.eqb (Nat.log2 (List.length yc)) 0 then Err IndexError
  else match get_autocorr_time yc 5 with
  | None => Err ValueError
  | Some tau => let bs := ceil tau in rmap (fun r => (r, bs)) (block_analysis yc bs)
  end).
