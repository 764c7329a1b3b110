(** * Model of the walkers a job starts with (physics/core.py 28-69, train/runners.py 101-220, 360-440, 486-560)

    Same simplifications as in M_mcmc.v.  A run without pmap is the case of one device. *)
From Coq Require Import Reals List Bool Arith.
From Verif Require Import XReal M_io M_vmc M_mcmc M_distribute.
Import ListNotations.
Local Open Scope R_scope.

(** jax.random.choice(key, nion, shape=(nelec,), replace, p): an arbitrary function (its contract is in S_start). *)
Definition choice_fn (K : Type) := K -> nat -> nat -> bool -> list R -> list nat.

Section Start.
  Context {P K : Type}.
  Variables (g : prng K) (choice : choice_fn K).

  (** physics/core.py 53-63: the loop over the chains; a walker is the flat list of its coordinates. *)
  Fixpoint assign_electrons (nchains : nat) (ion_pos : list (list R)) (ion_charges : list R) (nelec_total : nat) (key : K) : list (list R) * K :=
    match nchains with
    | O => ([], key)
    | S n =>
        let replace := negb (Nat.leb nelec_total (length ion_charges)) in
        let (key, subkey) := split2 g key in
        let choices := choice subkey (length ion_charges) nelec_total replace
                         (map (fun z => z / fold_right Rplus 0 ion_charges) ion_charges) in
        let walker := concat (map (fun a => nth a ion_pos []) choices) in
        let (rest, key) := assign_electrons n ion_pos ion_charges nelec_total key in
        (walker :: rest, key)
    end.
  (** physics/core.py 28-69. *)
  Definition initialize_molecular_pos (key : K) (nchains : nat) (ion_pos : list (list R)) (ion_charges : list R) (nelec_total : nat) (init_width : R)
      : K * list (list R) :=
    let (elecs_at_ions, key) := assign_electrons nchains ion_pos ion_charges nelec_total key in
    let (key, subkey) := split2 g key in
    (key, zipw (zipw (fun x z => x + init_width * z)) elecs_at_ions (normal g subkey (map (@length R) elecs_at_ions))).

  Variable model_apply : P -> list (list R) -> list xr.

  (** runners.py 137-201: [_make_initial_data]; [None]: ValueError of [default_distribute_data]. *)
  Definition make_initial_data (ndev : nat) (std : R) (init_pos : list (list R)) (params : P) : option (list (padata move_metadata)) :=
    match reshape_data_leaves_for_distribution ndev init_pos with
    | None => None
    | Some shards =>
        let amplitudes := map (model_apply params) shards in
        let metas := replicate_all_local_devices ndev {| std_move := std; acc_sum := 0; moves := 0 |} in
        Some (zipw (fun xa m => Build_padata (fst xa) (snd xa) m) (combine shards amplitudes) metas)
    end.

  (** runners.py 205-219: [_get_mcmc_fns]: the Metropolis step of a run. *)
  Definition run_step (nmoves_per_width_update : nat) : P -> list (padata move_metadata) -> list K -> list xr * list (padata move_metadata) * list K :=
    dynamic_step g model_apply nmoves_per_width_update (adjust_std_move (1 / 2) (5 / 100) (1 / 10)) true.

  (** The numbers of config.vmc (or config.eval) used here (default_config.py 293-301, 373-381). *)
  Record walk_cfg := { wc_nchains : nat; wc_nburn : nat; wc_nsteps : nat; wc_nmoves : nat; wc_std : R }.

  (** Initial parameters from a key and one walker (flax's [init], arbitrary) and the keys of the devices
      (distribute.py 44-48, arbitrary). *)
  Variables (init_params : K -> list (list R) -> P) (device_keys : K -> list K).
  Variable ndev : nat.

  (** runners.py 380-440: [_setup_vmc] as far as walkers, parameters and keys are concerned. *)
  Definition setup_walkers (c : walk_cfg) (ion_pos : list (list R)) (ion_charges : list R) (nelec_total : nat) (key : K)
      : option (P * list (padata move_metadata) * list K) :=
    let (key, init_pos) := initialize_molecular_pos key (wc_nchains c) ion_pos ion_charges nelec_total 1 in
    let (key, subkey) := split2 g key in
    let params := init_params subkey (firstn 1 init_pos) in
    match make_initial_data ndev (wc_std c) init_pos params with
    | None => None
    | Some data => Some (params, data, device_keys key)
    end.

  (** runners.py 486-523: [_make_new_data_for_eval] ([None]: ValueError, or no device). *)
  Definition make_new_data_for_eval (c : walk_cfg) (ion_pos : list (list R)) (ion_charges : list R) (nelec_total : nat) (params : P) (keys : list K)
      : option (list (padata move_metadata) * list K) :=
    match get_first keys with
    | None => None
    | Some key =>
        let (key, init_pos) := initialize_molecular_pos key (wc_nchains c) ion_pos ion_charges nelec_total 1 in
        match make_initial_data ndev (wc_std c) init_pos params with
        | None => None
        | Some data => Some (data, device_keys key)
        end
    end.

  (** runners.py 555-558 with metropolis.py 201-226: the burn-in. *)
  Definition burn_in (c : walk_cfg) (params : P) (data : list (padata move_metadata)) (keys : list K) : list (padata move_metadata) * list K :=
    burn_data (burning_step (run_step (wc_nmoves c))) (wc_nburn c) params data keys.
  (** The walker function of a run, runners.py 215-217. *)
  Definition run_walker (c : walk_cfg) : P -> list (padata move_metadata) -> list K -> xr * list (padata move_metadata) * list K :=
    walker_fn_pmapped (wc_nsteps c) (run_step (wc_nmoves c)) ndev.

  (** runners.py 526-580 from the start of a job: set up, burn in, train.  [update] is one of the update functions of
      M_optim, [init_opt] the optimiser's initial state. *)
  Definition train_from_start {St} (update : P -> list (padata move_metadata) -> St -> list K -> P * list (padata move_metadata) * St * option dict * list K)
      (init_opt : P -> St) (has_nan : P -> bool) (vc : cfg (list (padata move_metadata))) (nepochs : nat)
      (c : walk_cfg) (ion_pos : list (list R)) (ion_charges : list R) (nelec_total : nat) (key : K)
      : option (run_result P (list (padata move_metadata)) St (list K)) :=
    match setup_walkers c ion_pos ion_charges nelec_total key with
    | None => None
    | Some (params, data, keys) =>
        let (data, keys) := burn_in c params data keys in
        Some (vmc_loop (run_walker c) update has_nan vc 0 nepochs params (init_opt params) data keys)
    end.
End Start.
