(** * Model of the PRNG key handling of a whole run

    Each function below follows the key through the corresponding function of the program and
    returns the list of keys that function consumes (hands to a random draw or to an opaque
    consumer) together with the key it passes on.  Simplification: keys are the paths of [S_mcmc]
    (free generator: different derivation paths are different keys). *)
From Coq Require Import List Arith.
From Verif Require Import S_mcmc.
Import ListNotations.

(** jax.random.split(k, n). *)
Definition split_n (k : key) (n : nat) : list key := map (fun i => SplitOp n i :: k) (seq 0 n).
(** key, subkey = jax.random.split(k). *)
Definition key_split2 (k : key) : key * key := (SplitOp 2 0 :: k, SplitOp 2 1 :: k).

(** A piece of program that threads the key. *)
Definition kprog := key -> list key * key.
Definition kseq (f g : kprog) : kprog :=
  fun k => let (u, k) := f k in let (v, k) := g k in (u ++ v, k).
Definition kskip : kprog := fun k => ([], k).
Fixpoint kloop (n : nat) (f : kprog) : kprog :=
  match n with O => kskip | S m => kseq f (kloop m f) end.

(** key, subkey = jax.random.split(key); use(subkey). *)
Definition use_subkey : kprog := fun k => let (k, sub) := key_split2 k in ([sub], k).

(** physics/core.py 53-69: one subkey per chain, then one for the gaussian. *)
Definition initialize_molecular_pos_keys (nchains : nat) : kprog :=
  kseq (kloop nchains use_subkey) use_subkey.

(** train/runners.py 112-113: model initialisation. *)
Definition init_model_keys : kprog := use_subkey.

(** utils/distribute.py 44-48: [make_different_rng_key_on_all_devices]. *)
Definition device_keys (process_index ndevices : nat) (k : key) : list key :=
  split_n (FoldOp process_index :: k) ndevices.

(** mcmc/metropolis.py 56-62 and 242-243: one Metropolis step.  Line 56 splits, the proposal
    (called with the new key) splits again and consumes its subkey, then line 61 consumes the
    first subkey. *)
Definition step_keys : kprog := fun k =>
  let (k, subkey) := key_split2 k in
  let (k, proposal_subkey) := key_split2 k in
  ([proposal_subkey; subkey], k).

(** mcmc/metropolis.py 70-114 and 201-226. *)
Definition walk_keys (nsteps : nat) : kprog := kloop nsteps step_keys.
Definition burn_keys (nburn : nat) : kprog := kloop nburn step_keys.

(** The kinds of parameter update. *)
Inductive update_kind :=
| GradStandard          (* updates/params.py 103-107; core.py 335-347 ignores the subkey *)
| GradRandomParticle (nbatch : nat)  (* params.py 105, core.py 356-362: one key per walker *)
| Kfac.                 (* params.py 184-189: the subkey goes to optimizer.step *)

(** updates/params.py 105 / 184; for GradStandard the subkey is counted although it is unused. *)
Definition update_keys (u : update_kind) : kprog := fun k =>
  let (k, sub) := key_split2 k in
  (match u with GradRandomParticle nbatch => split_n sub nbatch | _ => [sub] end, k).

(** updates/parse_config.py 259-261: optimizer initialisation (per device). *)
Definition init_optimizer_keys (u : update_kind) : kprog :=
  match u with Kfac => use_subkey | _ => kskip end.

(** train/vmc.py 110-165: one epoch = walk, then update. *)
Definition epochs_keys (nepochs nsteps : nat) (u : kprog) : kprog :=
  kloop nepochs (kseq (walk_keys nsteps) u).

(** The same program on every device, each with its own key. *)
Definition on_devices (f : kprog) (ks : list key) : list key * list key :=
  (concat (map (fun k => fst (f k)) ks), map (fun k => snd (f k)) ks).

(** Number-of-things part of a configuration. *)
Record run_cfg := {
  rc_nchains : nat; rc_ndevices : nat; rc_process : nat;
  rc_update : update_kind; rc_nburn : nat; rc_nepochs : nat; rc_nsteps : nat;
  rc_new_eval_data : bool;
  rc_eval_nchains : nat; rc_eval_nburn : nat; rc_eval_nepochs : nat; rc_eval_nsteps : nat }.

(** train/runners.py 623-694 (run_molecule up to the end of training): all consumed keys and the
    per-device keys afterwards. *)
Definition training_keys (c : run_cfg) (seed : key) : list key * list key :=
  let (u0, k) := kseq (initialize_molecular_pos_keys (rc_nchains c)) init_model_keys seed in
  let ks := device_keys (rc_process c) (rc_ndevices c) k in
  let (u1, ks) := on_devices (kseq (init_optimizer_keys (rc_update c))
                    (kseq (burn_keys (rc_nburn c))
                          (epochs_keys (rc_nepochs c) (rc_nsteps c) (update_keys (rc_update c))))) ks in
  (u0 ++ u1, ks).

(** train/runners.py 485-522: [_make_new_data_for_eval] restarts from the first device's key. *)
Definition new_eval_data_keys (c : run_cfg) (ks : list key) : list key * list key :=
  match ks with
  | [] => ([], [])
  | k :: _ => let (u, k) := initialize_molecular_pos_keys (rc_eval_nchains c) k in
              (u, device_keys (rc_process c) (rc_ndevices c) k)
  end.

(** train/runners.py 700-747: training followed by evaluation with a standard or ibp local energy
    (updates/params.py 255-258: the evaluation update consumes no key). *)
Definition run_keys (c : run_cfg) (seed : key) : list key * list key :=
  let (u1, ks) := training_keys c seed in
  let (u2, ks) := if rc_new_eval_data c then new_eval_data_keys c ks else ([], ks) in
  let (u3, ks) := on_devices (kseq (burn_keys (rc_eval_nburn c))
                    (epochs_keys (rc_eval_nepochs c) (rc_eval_nsteps c) kskip)) ks in
  (u1 ++ u2 ++ u3, ks).

(** updates/params.py 249-254 (use_PRNGKey, i.e. random_particle evaluation): the key is replaced
    by the batch of keys, which are consumed by the local energies, and that batch is returned. *)
Definition eval_random_particle_keys (nbatch : nat) (k : key) : list key * list key :=
  (split_n k nbatch, split_n k nbatch).
