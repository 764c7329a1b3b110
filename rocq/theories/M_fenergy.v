(** M_fenergy: energy statistics and clipping on machine floating-point numbers.

    Models, on the floating-point numbers of M_float (any format, rounding to nearest even, subnormal numbers kept):
    - vmcnet/utils/distribute.py:63-71 [mean_all_local_devices], [nanmean_all_local_devices];
    - vmcnet/physics/core.py:187-220 [get_statistics_from_local_energy],
      :223-263 [get_clipped_energies_and_aux_data];
    - vmcnet/train/runners.py:285-307 [total_variation_clipping_fn].

    Simplifications.  The local energies are one list per device.  jnp.sum is a parameter as in M_float; so is jnp.nanmedian.
    jax.lax.pmean is the sum over the devices divided by their number.  nchains is at least 1. *)
From Coq Require Import ZArith Reals.
From Flocq Require Import Core IEEE754.BinarySingleNaN.
From Coq Require Import Lia List Bool.
Import ListNotations.
From Verif Require Import M_float M_fwalk.

Section Energy.
Variables prec emax : Z.
Context {Hp : Prec_gt_0 prec}.
Context {He : Prec_lt_emax prec emax}.
Notation fl := (binary_float prec emax).
Notation fzero := (fzero prec emax).
Notation fadd := (fadd prec emax). Notation fsub := (fsub prec emax). Notation fmul := (fmul prec emax).
Notation fdiv := (fdiv prec emax). Notation of_nat := (of_nat prec emax).

Section Functions.
(** jnp.sum and jnp.nanmedian. *)
Variables (fs : list fl -> fl) (fmedian : list fl -> fl).

(** jnp.mean: the sum divided by the number of entries. *)
Definition mean (l : list fl) : fl := fdiv (fs l) (of_nat (length l)).

(** jnp.nanmean: NaN entries are replaced by zeros in the sum and not counted. *)
Definition nanmean (l : list fl) : fl :=
  fdiv (fs (map (fun x => if is_nan x then fzero else x) l)) (of_nat (length (filter (fun x => negb (is_nan x)) l))).

(** distribute.py:63-71. *)
Definition allreduce_mean (nan_safe : bool) (ls : list (list fl)) : fl := mean (map (if nan_safe then nanmean else mean) ls).

(** core.py:209-220. *)
Definition centered (energy : fl) (ls : list (list fl)) : list (list fl) := map (map (fun e => fsub e energy)) ls.
Definition statistics (nchains : nat) (nan_safe : bool) (ls : list (list fl)) : fl * fl :=
  let energy := allreduce_mean nan_safe ls in
  let squares := map (map (fun d => fmul d d)) (centered energy ls) in
  (energy, fdiv (fmul (allreduce_mean nan_safe squares) (of_nat nchains)) (of_nat (nchains - 1))).

(** jnp.minimum, which propagates NaN, and jnp.clip. *)
Definition fmin (x y : fl) : fl := if is_nan x then x else if is_nan y then y else if Bleb x y then x else y.
Definition clip (x lo hi : fl) : fl := fmin (fmax prec emax x lo) hi.

(** runners.py:292-307 on one device; [by_mean]: clip_center is "mean" ("median" otherwise; any other name raises, see C74 and M_setup). *)
Definition clipping_center (by_mean : bool) (energy_noclip : fl) (l : list fl) : fl := if by_mean then energy_noclip else fmedian l.
Definition total_variation (center : fl) (l : list fl) : fl := nanmean (map (fun e => Babs (fsub e center)) l).
Definition total_variation_clipping (threshold : fl) (by_mean : bool) (energy_noclip : fl) (l : list fl) : list fl :=
  let center := clipping_center by_mean energy_noclip l in
  let width := fmul threshold (total_variation center l) in
  map (fun e => clip e (fsub center width) (fadd center width)) l.

Record energy_data := { ed_energy : fl; ed_local : list (list fl); ed_variance : fl; ed_noclip : fl; ed_variance_noclip : fl; ed_centered : list (list fl) }.

(** core.py:223-263; [clipping] holds the threshold and the center, None if there is no clipping function. *)
Definition clipped_energies (nchains : nat) (clipping : option (fl * bool)) (nan_safe : bool) (ls : list (list fl)) : energy_data :=
  let noclip := statistics nchains false ls in
  let local := match clipping with Some (t, by_mean) => map (total_variation_clipping t by_mean (fst noclip)) ls | None => ls end in
  let stats := statistics nchains nan_safe local in
  {| ed_energy := fst stats; ed_local := local; ed_variance := snd stats; ed_noclip := fst noclip; ed_variance_noclip := snd noclip;
     ed_centered := centered (fst stats) local |}.
End Functions.
End Energy.
