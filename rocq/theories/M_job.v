(** * Model of a whole job, from its configuration to its files (vmcnet/train/runners.py 101-118, 325-523, 592-747)

    The parts modelled elsewhere put together: the configured wavefunction (M_dispatch), the initial walkers and the
    Metropolis walk (M_start, M_mcmc), the configured local energy, its clipping and gradient (M_setup, M_energy), the
    parameter update (M_optim), and the job around them (M_run).  Simplifications, beside those of these files:
    - the devices' copies of parameters and optimiser state are read from the first device and written to all of them
      (they are equal; SPRING on several devices, where they are not (C57), is not modelled);
    - what jax raises while tracing the first update is raised when the job is built;
    - kfac_jax's step is an arbitrary function that leaves equal copies on the devices, and reports the energies of the function it is given;
    - SPRING on several devices, random-particle energies in evaluation (C21) and a job that fails between training and evaluation because
      its evaluation walkers do not divide over the devices are not modelled: no job is built. *)
From Coq Require Import Reals String List Bool Arith.
From Verif Require Import XReal M_io M_vmc M_mcmc M_distribute M_energy M_physics M_setup M_slog M_models M_construct M_dispatch M_optim M_optax M_run M_start.
Import ListNotations.
Local Open Scope R_scope.
Local Open Scope string_scope.

(** config.problem, config.model and the parts of config.vmc and config.eval that matter (default_config.py 69-410).
    The nchains of the energy sections are those of the walkers. *)
Record job_config := {
  jc_ion_pos : list (list R); jc_ion_charges : list R; jc_nelec : list nat; jc_ei_softening : R; jc_ee_softening : R;
  jc_model : model_sections;
  jc_walk : walk_cfg; jc_energy : energy_config; jc_optimizer : opt_cfg; jc_record_param_l1_norm : bool; jc_nepochs : nat;
  jc_logdir : option string; jc_checkpoint_every : option nat; jc_best_checkpoint_every : option nat; jc_checkpoint_dir : string;
  jc_checkpoint_variance_scale : R; jc_check_for_nans : bool; jc_record_amplitudes : bool; jc_nhistory_max : nat;
  jc_eval_walk : walk_cfg; jc_eval_energy : energy_config; jc_eval_use_training_data : bool;
  jc_eval_record_amplitudes : bool; jc_eval_record_local_energies : bool; jc_eval_nepochs : nat }.

(** The number of coordinates of a particle: ion_pos.shape[-1] (physics/core.py 61-66). *)
Definition dimension (ion_pos : list (list R)) : nat := match ion_pos with [] => O | a :: _ => List.length a end.
(** The same for a job (runners.py 87-98). *)
Definition jc_d (c : job_config) : nat := dimension (jc_ion_pos c).
(** runners.py 380: nelec_total. *)
Definition jc_n (c : job_config) : nat := list_sum (jc_nelec c).

(** A walker is the flat list of its coordinates (M_mcmc), electron after electron. *)
Definition positions_at (d : nat) (x : list R) : positions := fun i c => nth (i * d + c) x 0.
(** The array of shape (n, d) the model is applied to. *)
Definition rows_of (n d : nat) (y : positions) : arr2 := map (fun i => map (fun c => Fin (y i c)) (seq 0 d)) (seq 0 n).
(** An array of finite numbers. *)
Definition fin_array (l : list (list R)) : arr2 := map (map Fin) l.
(** log|psi| where it is finite (M_setup does not model nodes). *)
Definition finite_part (v : xr) : R := match v with Fin r => r | _ => 0 end.

(** runners.py 325-357: what the energy is assembled from. *)
Definition molecule_of (c : job_config) : molecule :=
  {| mol_d := jc_d c; mol_nion := List.length (jc_ion_charges c); mol_nelec := jc_n c;
     mol_locs := fun j k => nth k (nth j (jc_ion_pos c) []) 0; mol_charges := fun j => nth j (jc_ion_charges c) 0;
     mol_ei_softening := jc_ei_softening c; mol_ee_softening := jc_ee_softening c |}.
(** runners.py 350: the nchains given to the energy is that of the walkers. *)
Definition with_nchains (n : nat) (e : energy_config) : energy_config :=
  {| ec_type := ec_type e; ec_ibp_parts := ec_ibp_parts e; ec_sample_parts := ec_sample_parts e; ec_nparticles := ec_nparticles e;
     ec_clip_threshold := ec_clip_threshold e; ec_clip_center := ec_clip_center e; ec_nan_safe := ec_nan_safe e; ec_nchains := n |}.

(** checkpoint.py 259-261: smallest and largest amplitude of all walkers. *)
Definition amplitude_range (datas : list (padata move_metadata)) : xr * xr :=
  let l := concat (map amp datas) in (fold_right xmin PInf l, fold_right xmax MInf l).

(** The optimisers of this model (see above). *)
Definition modelled_optimiser (ndev : nat) (o : optimiser) : bool :=
  match o with Spring _ _ _ _ _ => Nat.eqb ndev 1 | _ => true end.
(** kfac_jax.Optimizer (third party) as used in updates/parse_config.py 238-262 and updates/params.py 184-193: its initial state (from parameters,
    keys and walkers), the key it hands to the energy function, and the parameters and state after a step. *)
Record kfac_optimizer (P1 S1 K : Type) := {
  kf_init : optimiser -> P1 -> list K -> list (list (list R)) -> S1;
  kf_value_key : K -> K;
  kf_step : optimiser -> (nat -> xr) -> P1 -> S1 -> list K -> list (list (list R)) -> P1 * S1 }.
Arguments kf_init {P1 S1 K}. Arguments kf_value_key {P1 S1 K}. Arguments kf_step {P1 S1 K}.

Section Job.
  (** Parameters and optimiser state of one device, keys of one device, content of a statistics file. *)
  Context {P1 S1 K J : Type}.
  (** jax: random numbers, keys, the devices. *)
  Variables (g : prng K) (choice : choice_fn K) (perm_of : K -> nat -> nat) (split_n : K -> nat -> list K) (device_keys : K -> list K) (ndev : nat).
  (** flax: the arrays in a parameter tree, and a fresh tree from a key and the shape of the positions. *)
  Variables (theta : P1 -> model_params) (init_params : K -> list nat -> P1).
  (** jax.grad in the parameters, of real and of extended-real functions. *)
  Variables (grad_p : (P1 -> R) -> P1 -> nat -> R) (grad_px : (P1 -> xr) -> P1 -> nat -> xr).
  (** The chosen optimiser's initial state and step (optimiser_apply of M_optax on flattened parameters): it sees the mean
      energy gradient, the parameters, its state, the parameter gradients of log|psi| at the walkers and the centred local energies. *)
  Variables (opt_init : optimiser -> P1 -> S1)
            (opt_apply : optimiser -> (nat -> xr) -> P1 -> S1 -> list (list (nat -> R)) -> list (list xr) -> P1 * S1).
  Variable kfac : kfac_optimizer P1 S1 K.
  Variables (has_nan : P1 -> bool) (param_l1_norm : P1 -> xr) (summary : list (list xr) -> J).

  Section Configured.
  Variable c : job_config.
  Let d := jc_d c.
  Let n := jc_n c.

  (** runners.py 109-116: log_psi_apply at one walker (NaN: the model raises; then no job is built). *)
  Definition log_psi_at (p : P1) (y : positions) : xr :=
    match model_of_job (jc_model c) (jc_nelec c) (fin_array (jc_ion_pos c)) (map Fin (jc_ion_charges c)) (theta p) with
    | Some w => match log_psi w (rows_of n d y) with Some v => v | None => NaN end
    | None => NaN
    end.
  (** The same where it is finite (runners.py 109-116; nodes are not modelled in M_setup). *)
  Definition real_log_psi (p : P1) (y : positions) : R := finite_part (log_psi_at p y).
  (** log_psi_apply on a batch of walkers. *)
  Definition model_apply (p : P1) (xs : list (list R)) : list xr := map (fun x => log_psi_at p (positions_at d x)) xs.
  (** Does the model accept the configuration and the shape of the walker? *)
  Definition model_accepts (p : P1) (x : list R) : bool :=
    match model_of_job (jc_model c) (jc_nelec c) (fin_array (jc_ion_pos c)) (map Fin (jc_ion_charges c)) (theta p) with
    | Some w => match log_psi w (rows_of n d (positions_at d x)) with Some _ => true | None => false end
    | None => false
    end.

  (** The local energy of an energy section at one walker. *)
  Definition local_energy_at (e : energy_config) (p : P1) (y : positions) (key : option K) : xr :=
    match assemble_mol_local_energy_fn (molecule_of c) e (real_log_psi p) with
    | Some f => call perm_of f y key
    | None => NaN
    end.
  (** physics/core.py 330-341: the derivatives of log|psi| in the parameters at one walker. *)
  Definition dlog_psi_at (p : P1) (y : positions) : nat -> R := grad_p (fun p' => real_log_psi p' y) p.

  (** runners.py 325-357 with updates/params.py 103-115: energies, and the gradient averaged over the devices. *)
  Definition energy_and_grad (p : P1) (keys : list K) (pos : list (list (list R))) : result (energy_data * (nat -> xr)) :=
    match molecule_val_and_grad perm_of split_n real_log_psi dlog_psi_at
            (fun p y => grad_px (fun p' => local_energy_at (jc_energy c) p' y None) p)
            (molecule_of c) (with_nchains (wc_nchains (jc_walk c)) (jc_energy c)) p keys (map (map (positions_at d)) pos) with
    | Err e => Err e
    | Ok (aux, energy, grad) =>
        Ok ({| ed_energy := energy; ed_variance := variance aux; ed_energy_noclip := Some (energy_noclip aux);
               ed_variance_noclip := Some (variance_noclip aux); ed_centered := centered aux |}, fun j => grad_mean (grad j))
    end.
  (** The same once it has been traced (the alternative is not reached). *)
  Definition energy_data_val_and_grad (p : P1) (keys : list K) (pos : list (list (list R))) : energy_data * (nat -> xr) :=
    match energy_and_grad p keys pos with
    | Ok r => r
    | Err _ => ({| ed_energy := NaN; ed_variance := NaN; ed_energy_noclip := None; ed_variance_noclip := None; ed_centered := [] |}, fun _ => NaN)
    end.
  (** updates/parse_config.py 317-321, 516-528, 599-619: what the optimiser is called with. *)
  Definition optimizer_apply (o : optimiser) (grad : nat -> xr) (p : P1) (s : S1) (datas : list (padata move_metadata)) (centered : list (list xr)) : P1 * S1 :=
    opt_apply o grad p s (map (fun dd => map (fun x => dlog_psi_at p (positions_at d x)) (pos dd)) datas) centered.
  (** kfac_jax's step (updates/params.py 184-198). *)
  Definition kfac_step (o : optimiser) (p : P1) (s : S1) (keys : list K) (pos : list (list (list R))) : P1 * S1 * energy_data :=
    let '(ed, grad) := energy_data_val_and_grad p (map (kf_value_key kfac) keys) pos in
    let '(p', s') := kf_step kfac o grad p s keys pos in (p', s', ed).
  (** The update function of the job (updates/params.py 103-128, 182-217). *)
  Definition job_update (o : optimiser) : P1 -> list (padata move_metadata) -> S1 -> list K -> P1 * list (padata move_metadata) * S1 * option dict * list K :=
    match o with
    | Kfac _ _ => kfac_update_param_fn g model_apply param_l1_norm (kfac_step o) (jc_record_param_l1_norm c)
    | _ => grad_update_param_fn g model_apply energy_data_val_and_grad (optimizer_apply o) param_l1_norm (jc_record_param_l1_norm c)
    end.
  (** updates/parse_config.py 260-262: KFAC uses up a key for its initial state; 404, 509, 588: the others do not. *)
  Definition init_optimizer (o : optimiser) (p : P1) (datas : list (padata move_metadata)) (keys : list K) : S1 * list K :=
    match o with
    | Kfac _ _ => let splits := map (split2 g) keys in (kf_init kfac o p (map snd splits) (map pos datas), map fst splits)
    | _ => (opt_init o p, keys)
    end.

  (** The options of the training loop, runners.py 543-580. *)
  Definition loop_cfg : cfg (list (padata move_metadata)) :=
    {| logdir := jc_logdir c; checkpoint_every := jc_checkpoint_every c; best_checkpoint_every := jc_best_checkpoint_every c;
       checkpoint_dir := jc_checkpoint_dir c; variance_scale := jc_checkpoint_variance_scale c; check_for_nans := jc_check_for_nans c;
       record_amplitudes := jc_record_amplitudes c; get_amplitude_fn := Some amplitude_range; nchains := wc_nchains (jc_walk c);
       nhistory_max := jc_nhistory_max c |}.

  (** updates/params.py 246-266 without keys: the local energies of all walkers. *)
  Definition eval_local_energies (p : P1) (datas : list (padata move_metadata)) : list xr :=
    concat (map (fun dd => map (fun x => local_energy_at (jc_eval_energy c) p (positions_at d x) None) (pos dd)) datas).
  (** physics/core.py 181-215 on the shards of the devices. *)
  Definition eval_statistics (les : list xr) : xr * xr :=
    match reshape_data_leaves_for_distribution ndev les with
    | Some shards => get_statistics_from_local_energy shards (wc_nchains (jc_eval_walk c)) (ec_nan_safe (jc_eval_energy c))
    | None => (NaN, NaN)
    end.
  (** Does evaluation start from new walkers (runners.py 717-719)? *)
  Definition new_eval_walkers : bool := negb (jc_eval_use_training_data c) || negb (Nat.eqb (wc_nchains (jc_walk c)) (wc_nchains (jc_eval_walk c))).
  (** Does the local energy of evaluation trace without keys (runners.py 707-716, updates/params.py 246-266)? *)
  Definition eval_energy_traces (p : P1) : bool :=
    match assemble_mol_local_energy_fn (molecule_of c) (jc_eval_energy c) (real_log_psi p) with
    | Some (Plain f) => traces (Plain f)
    | _ => false
    end.
  End Configured.

  (** runners.py 371-440, 486-523, 640-747: everything [run_molecule] needs, from the configuration and the seed's key;
      [None]: an exception before the first epoch is finished, or not modelled (see above). *)
  Definition build_job (c : job_config) (key : K) : option (job P1 (list (padata move_metadata)) S1 (list K) J) :=
    match setup_walkers g choice (model_apply c) (fun k x => init_params k (map (@List.length R) x)) device_keys ndev
            (jc_walk c) (jc_ion_pos c) (jc_ion_charges c) (jc_n c) key, choose_optimiser (jc_optimizer c) with
    | Some (p0, data, keys), Chosen o =>
        let first_walker := hd [] (concat (map pos data)) in
        let first {A} (a : A) (l : reps A) := hd a l in
        let '(s0, keys0) := init_optimizer o p0 data keys in
        if modelled_optimiser ndev o && model_accepts c p0 first_walker
           && match energy_and_grad c p0 keys (map pos data) with Ok _ => true | Err _ => false end
           && eval_energy_traces c p0
           && (negb (new_eval_walkers c) || Nat.eqb (wc_nchains (jc_eval_walk c) mod ndev) 0)
        then Some {|
          j_ndev := ndev;
          j_init := (repeat p0 ndev, repeat s0 ndev, data, keys0);
          j_burn := fun p => burn_in g (model_apply c) (jc_walk c) (first p0 p);
          j_walk := fun p => run_walker g (model_apply c) ndev (jc_walk c) (first p0 p);
          j_update := fun p dd s k =>
            let '(p', dd', s', m, k') := job_update c o (first p0 p) dd (first s0 s) k in (repeat p' ndev, dd', repeat s' ndev, m, k');
          j_has_nan := fun p => has_nan (first p0 p);
          j_cfg := loop_cfg c;
          j_nepochs := jc_nepochs c;
          j_use_training_data := jc_eval_use_training_data c;
          j_eval_nchains := wc_nchains (jc_eval_walk c);
          j_new_data := fun p k =>
            match make_new_data_for_eval g choice (model_apply c) device_keys ndev (jc_eval_walk c) (jc_ion_pos c) (jc_ion_charges c) (jc_n c) (first p0 p) k with
            | Some (dd, k') => (k', dd)
            | None => (k, [])
            end;
          j_eval_burn := fun p => burn_in g (model_apply c) (jc_eval_walk c) (first p0 p);
          j_eval_walk := fun p => run_walker g (model_apply c) ndev (jc_eval_walk c) (first p0 p);
          j_local_energies := fun p => eval_local_energies c (first p0 p);
          j_statistics := eval_statistics c;
          j_eval_amplitudes := jc_eval_record_amplitudes c;
          j_record_local_energies := jc_eval_record_local_energies c;
          j_eval_nepochs := jc_eval_nepochs c;
          j_summary := summary |}
        else None
    | _, _ => None
    end.
End Job.
