(** * Vocabulary for whole jobs (C77, C78) *)
From Coq Require Import String Reals List Arith.
From Verif Require Import XReal M_io M_vmc M_mcmc M_physics M_setup M_models M_dispatch M_optax M_run M_start M_job S_models S_mcmc S_start S_optax S_energy S_physics S_setup.
Import ListNotations.
Local Open Scope R_scope.

(** ** The same files with the walkers in the checkpoints replaced by [f] of them *)
Section OnData.
  Context {P D S K P1 S1 J : Type}.
  Variable f : D -> D.
  Definition on_ckpt (c : ckpt P D S K) : ckpt P D S K :=
    {| c_epoch := c_epoch c; c_data := f (c_data c); c_params := c_params c; c_opt := c_opt c; c_key := c_key c |}.
  Definition on_write (w : string * string * ckpt P D S K) : string * string * ckpt P D S K := (fst w, on_ckpt (snd w)).
End OnData.
Section OnJob.
  Context {P1 D S1 K J : Type}.
  Variable f : D -> D.
  Definition on_files (l : logfiles P1 D S1 K J) : logfiles P1 D S1 K J :=
    {| lf_train := lf_train l; lf_eval := lf_eval l; lf_rows := lf_rows l; lf_ckpts := map (on_write f) (lf_ckpts l); lf_stats := lf_stats l |}.
  Definition on_outcome (o : outcome P1 D S1 K J) : outcome P1 D S1 K J :=
    match o with
    | Crashed l => Crashed (on_files l)
    | NansDetected l => NansDetected (on_files l)
    | Completed p l => Completed p (on_files l)
    end.
  Definition on_reload (r : reload P1 D S1 K) : reload P1 D S1 K :=
    {| r_ckpt := on_ckpt f (r_ckpt r); r_source := r_source r; r_append := r_append r; r_new_optimizer_state := r_new_optimizer_state r;
       r_reburn := r_reburn r; r_same_logdir := r_same_logdir r |}.
End OnJob.

(** ** The problem *)
(** The number of coordinates of a particle; the number of electrons. *)
Definition space_dim (c : job_config) : nat := match jc_ion_pos c with [] => O | a :: _ => length a end.
Definition electron_count (c : job_config) : nat := list_sum (jc_nelec c).
(** A walker is the list of its coordinates, electron after electron: coordinate k of electron i. *)
Definition electrons_of_walker (c : job_config) (x : list R) : positions := fun i k => nth (i * space_dim c + k) x 0.
(** log|psi| of the configured wavefunction (C72, C73) for electrons at y (NaN: it raises an exception). *)
Definition configured_log_psi {P1} (theta : P1 -> model_params) (c : job_config) (p : P1) (y : positions) : xr :=
  match model_of_job (jc_model c) (jc_nelec c) (map (map Fin) (jc_ion_pos c)) (map Fin (jc_ion_charges c)) (theta p) with
  | Some w => match log_psi w (map (fun i => map (fun k => Fin (y i k)) (seq 0 (space_dim c))) (seq 0 (electron_count c))) with Some v => v | None => NaN end
  | None => NaN
  end.
(** The Hamiltonian of the molecule, with the configured softening (C36), applied to f at y. *)
Definition molecular_hamiltonian (c : job_config) (f : positions -> R) (y : positions) : R :=
  hamiltonian (space_dim c) (length (jc_ion_charges c)) (fun j k => nth k (nth j (jc_ion_pos c) []) 0) (fun j => nth j (jc_ion_charges c) 0)
    (jc_ei_softening c) (jc_ee_softening c) (electron_count c) f y.

(** ** Translations *)
(** The coordinates of a particle moved by v. *)
Definition moved_ion (v : nat -> R) (a : list R) : list R := map (fun c => nth c a 0 + v c) (seq 0 (length a)).
(** A walker (coordinates of one electron after the other, d for each) with all electrons moved by v. *)
Definition moved_walker (d : nat) (v : nat -> R) (x : list R) : list R := map (fun i => nth i x 0 + v (i mod d)%nat) (seq 0 (length x)).
(** The walkers of all devices moved by v; their amplitudes and step widths stay. *)
Definition moved_walkers (d : nat) (v : nat -> R) (datas : list (padata move_metadata)) : list (padata move_metadata) :=
  map (fun dd => Build_padata (map (moved_walker d v) (pos dd)) (amp dd) (meta dd)) datas.
(** The same configuration with the ions moved by v. *)
Definition moved_config (v : nat -> R) (c : job_config) : job_config :=
  {| jc_ion_pos := map (moved_ion v) (jc_ion_pos c); jc_ion_charges := jc_ion_charges c; jc_nelec := jc_nelec c; jc_ei_softening := jc_ei_softening c;
     jc_ee_softening := jc_ee_softening c; jc_model := jc_model c; jc_walk := jc_walk c; jc_energy := jc_energy c; jc_optimizer := jc_optimizer c;
     jc_record_param_l1_norm := jc_record_param_l1_norm c; jc_nepochs := jc_nepochs c; jc_logdir := jc_logdir c; jc_checkpoint_every := jc_checkpoint_every c;
     jc_best_checkpoint_every := jc_best_checkpoint_every c; jc_checkpoint_dir := jc_checkpoint_dir c; jc_checkpoint_variance_scale := jc_checkpoint_variance_scale c;
     jc_check_for_nans := jc_check_for_nans c; jc_record_amplitudes := jc_record_amplitudes c; jc_nhistory_max := jc_nhistory_max c; jc_eval_walk := jc_eval_walk c;
     jc_eval_energy := jc_eval_energy c; jc_eval_use_training_data := jc_eval_use_training_data c; jc_eval_record_amplitudes := jc_eval_record_amplitudes c;
     jc_eval_record_local_energies := jc_eval_record_local_energies c; jc_eval_nepochs := jc_eval_nepochs c |}.

(** There is an ion, every ion has the same number of coordinates, every ion has a charge. *)
Definition well_formed_ions (c : job_config) : Prop :=
  jc_ion_pos c <> [] /\ Forall (fun a => length a = space_dim c) (jc_ion_pos c) /\ length (jc_ion_charges c) = length (jc_ion_pos c).
(** All walkers have n electrons of d coordinates. *)
Definition well_shaped (n d : nat) (datas : list (padata move_metadata)) : Prop :=
  Forall (fun dd => Forall (fun x => length x = (n * d)%nat) (pos dd)) datas.

(** ** Which configurations run *)
(** The section of a job's energy: a known type; sampling no particles only if nothing is sampled; a known centre if energies are clipped. *)
Definition good_energy (e : energy_config) : Prop :=
  In (ec_type e) ["standard"; "ibp"; "random_particle"]%string /\
  (ec_type e = "random_particle"%string -> ec_nparticles e = O -> forall part, In part ["kinetic"; "ei"; "ee"]%string -> ~ In part (ec_sample_parts e)) /\
  (ec_type e <> "ibp"%string -> 0 < ec_clip_threshold e -> ec_clip_center e = "mean"%string \/ ec_clip_center e = "median"%string).
(** The section of the optimiser (C74), SPRING on several devices aside. *)
Definition good_optimizer (ndev : nat) (o : opt_cfg) : Prop :=
  In (oc_type o) ["kfac"; "adam"; "sgd"; "sr"; "spring"]%string /\ (oc_type o = "spring"%string -> ndev = 1%nat) /\ (forall s, section_schedule o (oc_type o) = Some s -> known_schedule s) /\
  (oc_type o = "sr"%string -> (sr_descent_type (oc_sr o) = "adam"%string \/ sr_descent_type (oc_sr o) = "sgd"%string) /\
     In (upper_case (sr_mode_name (oc_sr o))) ["LAZY"; "DEBUG"]%string).
(** The configured wavefunction has a value for the electrons of the problem, whatever its parameters: it is built and raises no exception. *)
Definition model_evaluates (c : job_config) : Prop :=
  forall theta x, shape2 (electron_count c) (space_dim c) x ->
  exists w l, model_of_job (jc_model c) (jc_nelec c) (map (map Fin) (jc_ion_pos c)) (map Fin (jc_ion_charges c)) theta = Some w /\ log_psi w x = Some l.
(** Everything a job checks before its first epoch ends. *)
Definition accepted_config (ndev : nat) (c : job_config) : Prop :=
  (wc_nchains (jc_walk c) mod ndev = 0)%nat /\ wc_nchains (jc_walk c) <> 1%nat /\ good_energy (jc_energy c) /\ good_optimizer ndev (jc_optimizer c) /\
  (ec_type (jc_eval_energy c) = "standard"%string \/ ec_type (jc_eval_energy c) = "ibp"%string) /\
  (jc_eval_use_training_data c = false \/ wc_nchains (jc_walk c) <> wc_nchains (jc_eval_walk c) -> (wc_nchains (jc_eval_walk c) mod ndev = 0)%nat).

(** |psi| of the configured wavefunction at one walker. *)
Definition modulus {P1} (theta : P1 -> model_params) (c : job_config) (p : P1) (y : positions) : R :=
  match configured_log_psi theta c p y with Fin r => exp r | _ => 0 end.
(** All walkers' positions. *)
Definition all_walkers (c : job_config) (datas : list (padata move_metadata)) : list positions := map (electrons_of_walker c) (concat (map pos datas)).

(** f is a wavefunction of modulus |psi| (any choice of signs) that is positive or negative and smooth at all walkers, none of which sits on an ion
    or has two electrons at the same place. *)
Definition ordinary_walkers {P1} (theta : P1 -> model_params) (c : job_config) (p : P1) (f : positions -> R) (datas : list (padata move_metadata)) : Prop :=
  (forall y, Rabs (f y) = modulus theta c p y) /\ forall y, In y (all_walkers c datas) -> ordinary (space_dim c) (length (jc_ion_charges c)) (fun j k => nth k (nth j (jc_ion_pos c) []) 0) (jc_ei_softening c) (jc_ee_softening c) (electron_count c) f y.
(** (H f) / f at the walkers of each device, and at all walkers. *)
Definition device_energies (c : job_config) (f : positions -> R) (datas : list (padata move_metadata)) : list (list R) :=
  map (fun dd => map (fun x => let y := electrons_of_walker c x in molecular_hamiltonian c f y / f y) (pos dd)) datas.
Definition walkers_energies (c : job_config) (f : positions -> R) (datas : list (padata move_metadata)) : list R := concat (device_energies c f datas).
(** Clipping (C29): with a positive threshold, on each device every energy is replaced by the closest one in the window
    [threshold * mean distance] around the centre, the mean of all energies or a median of the device's. *)
Definition clipped (threshold : R) (centre : string) (energies clipped_energies : list (list R)) : Prop :=
  Forall2 (fun l l' =>
    (threshold <= 0 -> l' = l) /\
    (0 < threshold -> exists m, (centre = "mean"%string -> m = lmean (concat energies)) /\ (centre = "median"%string -> is_median m l) /\
                                Forall2 (closest_within m (threshold * mean_distance m l)) l l')) energies clipped_energies.
(** The parameter gradients of log|psi| at the walkers, device by device. *)
Definition walkers_gradients {P1} (theta : P1 -> model_params) (grad_p : (P1 -> R) -> P1 -> nat -> R) (c : job_config) (p : P1) (datas : list (padata move_metadata)) : list (list (nat -> R)) :=
  map (fun dd => map (fun x => grad_p (fun p' => match configured_log_psi theta c p' (electrons_of_walker c x) with Fin r => r | _ => 0 end) p) (pos dd)) datas.

(** ** Where the walkers come from *)
(** Metropolis: the chance |psi(y)|^2 / |psi(x)|^2, at most 1, to accept a proposal with log|psi| = b at a place with log|psi| = a; away from a node always, from node to node never. *)
Definition metropolis_chance (a b : xr) : R :=
  match a, b with
  | Fin a, Fin b => Rmin 1 (exp (2 * (b - a)))
  | MInf, Fin _ | MInf, PInf | Fin _, PInf => 1
  | _, _ => 0
  end.
(** One walker proposes x + s z and moves there if a number u in [0,1) is below the chance; otherwise it stays. *)
Definition walker_moves {P} (psi : P -> list R -> xr) (p : P) (s : R) (x : list R) (chance : R) (x' : list R) : Prop :=
  exists z u, length z = length x /\ 0 <= u < 1 /\
    let y := map (fun i => nth i x 0 + s * nth i z 0) (seq 0 (length x)) in
    chance = metropolis_chance (psi p x) (psi p y) /\ (u < chance -> x' = y) /\ (chance <= u -> x' = x).
(** One step of all walkers of all devices, with a common width; [a] is the mean of their chances. *)
Definition metropolis_step {P} (psi : P -> list R -> xr) (p : P) (a : R) (xs xs' : list (list (list R))) : Prop :=
  exists s moves, 0 < s /\ Forall2 (Forall2 (fun x m => walker_moves psi p s x (fst m) (snd m))) xs moves /\
    xs' = map (map snd) moves /\ a = lmean (concat (map (map fst) moves)).
(** Steps one after the other, all with the parameters [p]; the list holds the mean chance of each step. *)
Inductive metropolis {P} (psi : P -> list R -> xr) (p : P) : list R -> list (list (list R)) -> list (list (list R)) -> Prop :=
| metropolis_0 xs : metropolis psi p [] xs xs
| metropolis_S a l xs xs1 xs2 : metropolis_step psi p a xs xs1 -> metropolis psi p l xs1 xs2 -> metropolis psi p (a :: l) xs xs2.
(** log|psi| is a real number everywhere. *)
Definition no_nodes {P} (psi : P -> list R -> xr) (p : P) : Prop := forall x, exists l, psi p x = Fin l.
(** The least and the greatest of finitely many numbers. *)
Definition is_least (m : R) (l : list R) : Prop := In m l /\ forall x, In x l -> m <= x.
Definition is_greatest (m : R) (l : list R) : Prop := In m l /\ forall x, In x l -> x <= m.
(** All walkers have their electrons around the ions of the problem (C75). *)
Definition around_the_ions (c : job_config) (xs : list (list (list R))) : Prop :=
  Forall (fun x => exists assign noise, around_ions 1 (jc_ion_pos c) (space_dim c) (electron_count c) assign noise x /\ ((electron_count c <= length (jc_ion_pos c))%nat -> NoDup assign)) (concat xs).
(** log|psi| of the configured wavefunction at a walker given by its coordinates. *)
Definition log_psi_of_walker {P1} (theta : P1 -> model_params) (c : job_config) (p : P1) (x : list R) : xr := configured_log_psi theta c p (electrons_of_walker c x).
