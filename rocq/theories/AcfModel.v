(** Model of openms/qmc/tools.py:626-664 ([autocorr_func]): the
    autocorrelation by zero-padded Fourier transforms.  Numbers are a closed
    field with conjugation; [z] stands for exp(2 pi i / m). *)
From mathcomp Require Import all_ssreflect all_algebra.
Set Implicit Arguments.
Unset Strict Implicit.
Unset Printing Implicit Defensive.
Import GRing.Theory Num.Theory.
Local Open Scope ring_scope.

Section Acf.
Variable (C : numClosedFieldType).
(** numpy.fft.fft(a, n=m) for m >= len(a), numpy.fft.ifft *)
Definition fft (m : nat) (z : C) (a : seq C) (q : nat) : C := \sum_(p < m) nth 0 a p * z ^- (p * q).
Definition ifft (m : nat) (z : C) (f : nat -> C) (k : nat) : C := m%:R^-1 * \sum_(q < m) f q * z ^+ (q * k).
(** the next power of two, line 655: 2 ** ceil(log2 len) *)
Definition next_pow2 (l : nat) : nat := 2 ^ up_log 2 l.
Definition mean (x : seq C) : C := (\sum_(a <- x) a) / (size x)%:R.
Definition centred (x : seq C) : seq C := [seq a - mean x | a <- x].
(** lines 655-659, before the optional division by the value at lag 0; real
    data, so the real part is the value itself *)
Definition acf_raw (z : C) (x : seq C) (k : nat) : C :=
  let n := next_pow2 (size x) in
  let f := fft (2 * n) z (centred x) in
  ifft (2 * n) z (fun q => f q * (f q)^*) k / (4 * n)%:R.
(** line 661-662 *)
Definition acf (z : C) (x : seq C) (k : nat) : C := acf_raw z x k / acf_raw z x 0.
End Acf.
