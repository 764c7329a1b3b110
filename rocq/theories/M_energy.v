(** * Model of the energy statistics, clipping and gradient estimator
    (vmcnet/physics/core.py 72-95 and 181-407, vmcnet/train/runners.py 284-322)

    Exact real arithmetic with NaN and infinities ([xr]).  An array distributed over devices is a
    list of per-device lists (shards); without pmap there is one shard. *)
From Coq Require Import Reals String List Arith Bool.
From Verif Require Import XReal M_mcmc M_distribute.
Import ListNotations.
Local Open Scope R_scope.

(** physics/core.py 72-95: [combine_local_energy_terms]; [local_energy_terms[0]] of an empty list
    raises IndexError (None). *)
Definition combine_local_energy_terms {P X} (terms : list (P -> X -> xr)) (p : P) (x : X) : option xr :=
  match terms with
  | [] => None
  | t0 :: rest => Some (fold_left (fun acc t => xadd acc (t p x)) rest (t0 p x))
  end.

(** physics/core.py 181-215: [get_statistics_from_local_energy]. *)
Definition get_statistics_from_local_energy (shards : list (list xr)) (nchains : nat) (nan_safe : bool) : xr * xr :=
  let energy := mean_over_first_axis nan_safe shards in
  let sq := map (map (fun e => xmul (xsub e energy) (xsub e energy))) shards in
  (energy, xdiv (xmul (mean_over_first_axis nan_safe sq) (Fin (INR nchains))) (Fin (INR nchains - 1))).

(** jnp.clip(x, lo, hi) = minimum(maximum(x, lo), hi); NaN in any argument gives NaN. *)
Definition xclip (v lo hi : xr) : xr := xmin (xmax v lo) hi.

(** Sorting the non-NaN entries, for the median. *)
Fixpoint xinsert (v : xr) (l : list xr) : list xr :=
  match l with [] => [v] | a :: l' => if xltb v a then v :: l else a :: xinsert v l' end.
Definition xsort (l : list xr) : list xr := fold_right xinsert [] l.

(** jnp.nanmedian: linear interpolation at position (n-1)/2 of the sorted non-NaN entries. *)
Definition nanmedian (l : list xr) : xr :=
  let s := xsort (filter (fun v => negb (isnan v)) l) in
  let n := length s in
  if Nat.eqb n 0 then NaN else
  let w := if Nat.even n then 1 / 2 else 0 in
  xadd (xmul (nth ((n - 1) / 2) s NaN) (Fin (1 - w))) (xmul (nth (n / 2) s NaN) (Fin w)).

(** train/runners.py 284-308: [total_variation_clipping_fn] on one device; unknown centre: ValueError. *)
Definition total_variation_clipping_fn (threshold : R) (clip_center : string) (local_energies : list xr) (energy_noclip : xr)
  : option (list xr) :=
  let go center :=
    let tv := xnanmean (map (fun e => xabs (xsub e center)) local_energies) in
    let w := xmul (Fin threshold) tv in
    map (fun e => xclip e (xsub center w) (xadd center w)) local_energies in
  if String.eqb clip_center "mean" then Some (go energy_noclip)
  else if String.eqb clip_center "median" then Some (go (nanmedian local_energies))
  else None.

Definition clip_fn := list xr -> xr -> option (list xr).

(** train/runners.py 311-322: [_get_clipping_fn]. *)
Definition get_clipping_fn (clip_threshold : R) (clip_center : string) : option clip_fn :=
  if Rltb 0 clip_threshold then Some (total_variation_clipping_fn clip_threshold clip_center) else None.

Record aux_data := { variance : xr; les_noclip : list (list xr); energy_noclip : xr; variance_noclip : xr;
                     centered : list (list xr) }.

(** physics/core.py 218-257: [get_clipped_energies_and_aux_data]. *)
Definition get_clipped_energies_and_aux_data (noclip : list (list xr)) (nchains : nat) (clipping_fn : option clip_fn) (nan_safe : bool)
  : option (xr * list (list xr) * aux_data) :=
  let '(e_noclip, v_noclip) := get_statistics_from_local_energy noclip nchains false in
  let les := match clipping_fn with
             | Some f => mapM (fun shard => f shard e_noclip) noclip
             | None => Some noclip
             end in
  match les with
  | None => None
  | Some les =>
      let '(e, v) := get_statistics_from_local_energy les nchains nan_safe in
      Some (e, les, {| variance := v; les_noclip := noclip; energy_noclip := e_noclip; variance_noclip := v_noclip;
                       centered := map (map (fun l => xsub l e)) les |})
  end.

(** physics/core.py 318-336: the function that is differentiated, [standard_estimator_forward], on
    all devices; nchains = 1 is a Python ZeroDivisionError (None). *)
Definition standard_estimator_forward (nchains : nat) (nan_safe : bool) (centered log_psi : list (list xr)) : option xr :=
  if Nat.eqb nchains 1 then None else
  Some (xmul (Fin (2 * INR nchains / (INR nchains - 1)))
             (mean_over_first_axis nan_safe (map (fun cl => zipw xmul (fst cl) (snd cl)) (combine centered log_psi)))).

(** jax.grad of it with respect to the parameters, in reverse mode, on one device: the cotangent of
    the mean is 1/count for every counted entry and 0 for the entries [nanmean] leaves out; times
    the centred energy it is the cotangent of log|psi|; times d log|psi| / d parameter and summed over
    walkers it is the gradient.  Inside pmap the transpose of [pmean] leaves each device with the
    gradient of its local mean; [grad_mean] below is [pmean_if_pmap(grad_energy)] of
    updates/params.py 110.  [dlog] is the derivative of log|psi| for one walker. *)
Definition counted (nan_safe : bool) (v : xr) : bool := negb nan_safe || negb (isnan v).
Definition standard_grad_device (nchains : nat) (nan_safe : bool) (cs ls : list xr) (dlogs : list xr) : xr :=
  let prods := zipw xmul cs ls in
  let count := length (filter (counted nan_safe) prods) in
  let ct v := if counted nan_safe v
              then xdiv (Fin (2 * INR nchains / (INR nchains - 1))) (Fin (INR count)) else Fin 0 in
  xsum (zipw xmul (zipw xmul (map ct prods) cs) dlogs).

(** updates/params.py 110. *)
Definition grad_mean (per_device : list xr) : xr := xmean per_device.

Inductive energy_error := ZeroDivision | BadClipCenter | BadLocalEnergyType.
Inductive result (A : Type) := Ok (a : A) | Err (e : energy_error).
Arguments Ok {A}. Arguments Err {A}.

Section ValueAndGrad.
Context {P X K : Type}.
Variables (log_psi : P -> X -> xr) (dlog_psi : P -> X -> nat -> xr).
Variables (local_energy : P -> X -> option K -> xr) (dlocal_energy : P -> X -> nat -> xr).
Variables (nchains : nat) (clipping : option clip_fn) (nan_safe : bool).
Variable split_n : K -> nat -> list K.

(** physics/core.py 338-346: [get_standard_contribution]; the gradient is a function of the
    parameter index, one value per device. *)
Definition get_standard_contribution (clip : option clip_fn) (noclip : list (list xr)) (p : P) (pos : list (list X))
  : result (aux_data * xr * (nat -> list xr)) :=
  match get_clipped_energies_and_aux_data noclip nchains clip nan_safe with
  | None => Err BadClipCenter
  | Some (energy, les, aux) =>
      if Nat.eqb nchains 1 then Err ZeroDivision else
      Ok (aux, energy, fun j =>
        map (fun cx => standard_grad_device nchains nan_safe (fst cx) (map (log_psi p) (snd cx))
                         (map (fun x => dlog_psi p x j) (snd cx)))
            (combine (map (map (fun l => xsub l energy)) les) pos))
  end.

(** physics/core.py 348-407: [create_value_and_grad_energy_fn] applied to (params, key, positions);
    [keys] has one key per device. *)
Definition energy_val_and_grad (local_energy_type : string) (p : P) (keys : list K) (pos : list (list X))
  : result (aux_data * xr * (nat -> list xr)) :=
  if String.eqb local_energy_type "standard" then
    get_standard_contribution clipping (map (map (fun x => local_energy p x None)) pos) p pos
  else if String.eqb local_energy_type "ibp" then
    match get_standard_contribution None (map (map (fun x => local_energy p x None)) pos) p pos with
    | Err e => Err e
    | Ok (aux, energy, g) =>
        Ok (aux, energy, fun j =>
          map (fun v => xadd v (mean_over_first_axis nan_safe (map (map (fun x => dlocal_energy p x j)) pos))) (g j))
    end
  else if String.eqb local_energy_type "random_particle" then
    get_standard_contribution clipping
      (map (fun kx => zipw (fun x k => local_energy p x (Some k)) (snd kx) (split_n (fst kx) (length (snd kx))))
           (combine keys pos)) p pos
  else Err BadLocalEnergyType.
End ValueAndGrad.
