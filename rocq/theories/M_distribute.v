(** * Model of vmcnet/utils/distribute.py: moving data between one host array and the local devices

    A distributed array is a list with one entry per device; an array with a leading walker axis is
    a list.  Errors are [None]. *)
From Coq Require Import List Arith Bool.
From Verif Require Import XReal M_mcmc.
Import ListNotations.

Section Dist.
Context {A : Type}.

(** Row-major reshape of an array of [ndev * size] entries to shape (ndev, size). *)
Fixpoint chunks (size ndev : nat) (l : list A) : list (list A) :=
  match ndev with O => [] | S d => firstn size l :: chunks size d (skipn size l) end.

(** distribute.py 105-116: [reshape_data_leaves_for_distribution]; ValueError if the number of
    chains is not divisible by the number of devices. *)
Definition reshape_data_leaves_for_distribution (ndev : nat) (leaf : list A) : option (list (list A)) :=
  if Nat.eqb (length leaf mod ndev) 0 then Some (chunks (length leaf / ndev) ndev leaf) else None.

(** distribute.py 32: pmap of the identity; pmap refuses more rows than there are devices. *)
Definition broadcast_all_local_devices (ndev : nat) (x : list A) : option (list A) :=
  if Nat.leb (length x) ndev then Some x else None.

(** distribute.py 35-41 (an object that is None stays None: not modelled, there is no leaf then). *)
Definition replicate_all_local_devices (ndev : nat) (obj : A) : list A := repeat obj ndev.

(** distribute.py 51-57 (indexing an empty axis raises). *)
Definition get_first (obj : list A) : option A := hd_error obj.
End Dist.

Fixpoint mapM {A B} (f : A -> option B) (l : list A) : option (list B) :=
  match l with
  | [] => Some []
  | a :: l => match f a, mapM f l with Some b, Some bs => Some (b :: bs) | _, _ => None end
  end.

(** distribute.py 119-123: every leaf of a pytree (given by its list of leaves) is reshaped. *)
Definition default_distribute_data {A} (ndev : nat) (leaves : list (list A)) : option (list (list (list A))) :=
  mapM (reshape_data_leaves_for_distribution ndev) leaves.

(** mcmc/position_amplitude_core.py 117-132: walker data are split, move metadata replicated. *)
Definition distribute_position_amplitude_data {X M} (ndev : nat) (position : list X) (amplitude : list xr) (meta : M)
  : option (list (list X) * list (list xr) * list M) :=
  match reshape_data_leaves_for_distribution ndev position, reshape_data_leaves_for_distribution ndev amplitude with
  | Some p, Some a => Some (p, a, replicate_all_local_devices ndev meta)
  | _, _ => None
  end.

(** distribute.py 157-174: [distribute_vmc_state_from_checkpoint]. *)
Definition distribute_vmc_state_from_checkpoint {D P S K} (ndev : nat) (data : list D) (params : P) (opt : S) (key : list K)
  : option (list D * list P * list S * list K) :=
  match broadcast_all_local_devices ndev data, broadcast_all_local_devices ndev key with
  | Some d, Some k => Some (d, replicate_all_local_devices ndev params, replicate_all_local_devices ndev opt, k)
  | _, _ => None
  end.

(** What a checkpoint of a distributed run stores (utils/checkpoint.py, [save_vmc_state] callers in
    train/vmc.py: [get_first] of params and optimizer state, data and key as they are). *)
Definition checkpoint_of {D P S K} (st : list D * list P * list S * list K) : option (list D * P * S * list K) :=
  let '(d, p, s, k) := st in
  match get_first p, get_first s with Some p, Some s => Some (d, p, s, k) | _, _ => None end.

(** Means over devices. *)
(** jnp.nanmean: the mean of the entries that are not NaN (NaN if there is none). *)
Definition xnanmean (l : list xr) : xr := xmean (filter (fun v => negb (isnan v)) l).
(** distribute.py 60-70: local mean on each device, then the mean over devices. *)
Definition mean_all_local_devices (shards : list (list xr)) : xr := xmean (map xmean shards).
Definition nanmean_all_local_devices (shards : list (list xr)) : xr := xmean (map xnanmean shards).
(** distribute.py 73-94: the nan-safe flag picks one of the two (used per array entry). *)
Definition mean_over_first_axis (nan_safe : bool) (shards : list (list xr)) : xr :=
  if nan_safe then nanmean_all_local_devices shards else mean_all_local_devices shards.
