(** * Model of vmcnet/mcmc/statistics.py

    Simplifications: exact real arithmetic (no rounding, complex numbers are pairs of reals); the
    FFT is its definition as a sum; an array of shape (N, M) is a function of (sample, chain) with
    its sizes; numbers that come out of a division are [xr], so 0/0 is NaN as in numpy. *)
From Coq Require Import Reals List Arith Bool.
From Verif Require Import XReal Rsum.
Import ListNotations.
Local Open Scope R_scope.

(** Complex numbers as numpy sees them. *)
Definition cplx := (R * R)%type.
Definition cadd (a b : cplx) : cplx := (fst a + fst b, snd a + snd b).
Definition cmul (a b : cplx) : cplx := (fst a * fst b - snd a * snd b, fst a * snd b + snd a * fst b).
Definition conj (a : cplx) : cplx := (fst a, - snd a).
Definition cexp_i (t : R) : cplx := (cos t, sin t).
Fixpoint Csum (n : nat) (f : nat -> cplx) : cplx :=
  match n with O => (0, 0) | S m => cadd (Csum m f) (f m) end.

(** np.fft.fft(x, n): discrete Fourier transform of length n of x, zero-padded. *)
Definition fft (len : nat) (x : nat -> R) (n k : nat) : cplx :=
  Csum n (fun t => cmul ((if Nat.ltb t len then x t else 0), 0)
                        (cexp_i (- (2 * PI * INR k * INR t / INR n)))).
(** np.fft.ifft(X): inverse transform of length n. *)
Definition ifft (n : nat) (X : nat -> cplx) (j : nat) : cplx :=
  cmul (/ INR n, 0) (Csum n (fun k => cmul (X k) (cexp_i (2 * PI * INR k * INR j / INR n)))).

(** np.mean over n >= 1 numbers (numpy: 0/0 = NaN for n = 0). *)
Definition rmean (n : nat) (f : nat -> R) : R := Rsum n f / INR n.

(** statistics.py 8-42, lines 25-39: the un-normalised curve G[i] of one chain of N samples. *)
Definition autocov (N : nat) (chain : nat -> R) (i : nat) : R :=
  let centered t := chain t - rmean N chain in
  let fvi := fft N centered (2 * N) in
  let G := fst (ifft (2 * N) (fun k => cmul (fvi k) (conj (fvi k))) i) in
  G / (INR N - INR i).

(** statistics.py 25-29: length of the returned curve. *)
Definition curve_length (N : nat) (cutoff : option nat) : nat :=
  match cutoff with None => N | Some c => Nat.min c N end.

(** statistics.py 41: [G /= G[:1]]. *)
Definition per_chain_autocorr (N : nat) (samples : nat -> nat -> R) (i c : nat) : xr :=
  xdiv (Fin (autocov N (fun t => samples t c) i)) (Fin (autocov N (fun t => samples t c) 0)).

(** Sums and means of [xr] arrays indexed 0..n-1. *)
Definition xsum_n (n : nat) (f : nat -> xr) : xr := xsum (map f (seq 0 n)).
Definition xmean_n (n : nat) (f : nat -> xr) : xr := xdiv (xsum_n n f) (Fin (INR n)).

(** np.var(x, ddof=1): sum of squared deviations over n - 1. *)
Definition var1 (n : nat) (f : nat -> R) : xr :=
  xdiv (Fin (Rsum n (fun i => (f i - rmean n f) ^ 2))) (Fin (INR n - 1)).

(** statistics.py 71-73: mean over chains of the chain variances. *)
Definition within_chain (N M : nat) (samples : nat -> nat -> R) : xr :=
  xmean_n M (fun c => var1 N (fun t => samples t c)).
(** statistics.py 72: variance of the chain means. *)
Definition between_chain (N M : nat) (samples : nat -> nat -> R) : xr :=
  var1 M (fun c => rmean N (fun t => samples t c)).
(** statistics.py 74. *)
Definition overall_var (N M : nat) (samples : nat -> nat -> R) : xr :=
  xadd (xdiv (xmul (within_chain N M samples) (Fin (INR N - 1))) (Fin (INR N))) (between_chain N M samples).
(** statistics.py 69-70 and 76-77: the multi-chain autocorrelation curve. *)
Definition multi_chain_autocorr (N M : nat) (samples : nat -> nat -> R) (i : nat) : xr :=
  let term := xmean_n M (fun c => xmul (var1 N (fun t => samples t c)) (per_chain_autocorr N samples i c)) in
  xsub (Fin 1) (xdiv (xsub (within_chain N M samples) term) (overall_var N M samples)).

(** statistics.py 101-110: sums of adjacent pairs, the odd last entry is dropped. *)
Fixpoint sums_of_pairs (curve : list xr) : list xr :=
  match curve with a :: b :: rest => xadd a b :: sums_of_pairs rest | _ => [] end.

(** statistics.py 112-119: cut at the first negative pair sum (NaN < 0 is false). *)
Fixpoint positive_prefix (l : list xr) : list xr :=
  match l with [] => [] | a :: l => if xltb a (Fin 0) then [] else a :: positive_prefix l end.

(** np.minimum.accumulate (line 123; NaN propagates). *)
Fixpoint min_accumulate_from (m : xr) (l : list xr) : list xr :=
  match l with [] => [] | a :: l => let m := xmin m a in m :: min_accumulate_from m l end.
Definition min_accumulate (l : list xr) : list xr :=
  match l with [] => [] | a :: l => a :: min_accumulate_from a l end.

(** statistics.py 81-124: [tau] of a one-dimensional curve. *)
Definition tau (curve : list xr) : xr :=
  xadd (Fin (- (1))) (xmul (Fin 2) (xsum (min_accumulate (positive_prefix (sums_of_pairs curve))))).

(** statistics.py 127-150: [get_stats_summary]. *)
Record stats := { average : xr; variance : xr; std_err : xr; iac : xr }.
Definition get_stats_summary (N M : nat) (samples : nat -> nat -> R) : stats :=
  let average := xmean_n N (fun t => xmean_n M (fun c => Fin (samples t c))) in
  let curve := map (multi_chain_autocorr N M samples) (seq 0 N) in
  let variance := overall_var N M samples in
  let iac := tau curve in
  {| average := average; variance := variance;
     std_err := xsqrt (xdiv (xmul iac variance) (Fin (INR (N * M)))); iac := iac |}.
