(** * Vocabulary for C81: when the configured wavefunction has a value; the configuration the program ships with *)
From Coq Require Import String Reals List Arith.
From Verif Require Import XReal M_slog M_models M_construct M_dispatch M_mcmc M_setup M_start M_optax M_job.
Import ListNotations.
Local Open Scope string_scope.

(** What the section of the chosen model type must say for the wavefunction of [nelec] electrons per spin (two spins or more) to have a value. *)
Definition evaluable (m : model_sections) (nelec : list nat) : Prop :=
  let nspins := length nelec in
  let net c := (0 < fc_ndeterminants c)%nat /\ sc_ei_norm (fc_streams c) = true /\
    (fc_use_det_resnet c = true -> upper (rc_mode (fc_det_resnet c)) = "PAIRWISE_EVEN" -> fc_full_det c = false /\ nspins = 2%nat) in
  let hidden h := net (hc_net h) /\ length (hc_nhidden h) = nspins in
  let readout c := sc_ei_norm (qc_streams c) = true /\ (qc_use_products_covariance c = true -> nspins = 2%nat) in
  (ms_type m = "ferminet" -> net (ms_ferminet m)) /\
  (ms_type m = "embedded_particle_ferminet" -> hidden (ms_embedded m) /\ sc_ei_norm (hc_streams (ms_embedded m)) = true) /\
  (ms_type m = "extended_orbital_matrix_ferminet" -> hidden (ms_extended m)) /\
  (ms_type m = "orbital_cofactor_net" -> readout (ms_cofactor m) /\ Forall (fun n => (0 < n)%nat) nelec) /\
  (ms_type m = "per_particle_dets_net" -> readout (ms_per_particle m)) /\
  (ms_type m = "explicit_antisym" -> let x := ms_explicit m in let j := jc_type (xc_jastrow x) in
     sc_ei_norm (xc_streams x) = true /\ (xc_antisym_type x = "factorized" -> (0 < xc_rank x)%nat) /\
     (j = "two_body_decay" \/ j = "two_body_decay_and_backflow_based" -> sc_2e (xc_streams x) = true)).

(** ** train/default_config.py *)
Definition model_types : list string :=
  ["ferminet"; "embedded_particle_ferminet"; "extended_orbital_matrix_ferminet"; "orbital_cofactor_net"; "per_particle_dets_net"; "explicit_antisym"].
Section Shipped.
Local Open Scope R_scope.
(** 121-127 *)
Definition shipped_streams : streams_config :=
  {| sc_2e := true; sc_ei_norm := true; sc_ei_norm_softening := Fin 0; sc_ee_norm := true; sc_ee_norm_softening := Fin 0 |}.
(** 129-152, 181-184, 251-272: the backflow sections, with their layer sizes and activation function. *)
Definition shipped_backflow (sizes : list (list nat)) (activation : string) : backflow_config :=
  {| bc_ndense_list := sizes; bc_kernel_init_unmixed := "orthogonal"; bc_kernel_init_mixed := "orthogonal"; bc_kernel_init_transformer := "orthogonal";
     bc_kernel_init_2e_1e := "orthogonal"; bc_kernel_init_2e_2e := "orthogonal"; bc_bias_init_1e := "normal"; bc_bias_init_2e := "normal"; bc_bias_init_transformer := "normal";
     bc_activation_fn := activation; bc_use_bias := true; bc_one_electron_skip := true; bc_one_electron_skip_scale := Fin 1; bc_two_electron_skip := true;
     bc_two_electron_skip_scale := Fin 1; bc_cyclic_spins := false; bc_use_transformer := false; bc_num_heads := 1 |}.
Definition shipped_layers : list (list nat) := [[256; 16]; [256; 16]; [256; 16]; [256]]%nat.
(** 154-162 *)
Definition shipped_resnet : resnet_config :=
  {| rc_ndense := 10; rc_nlayers := 3; rc_activation := "gelu"; rc_kernel_init := "orthogonal"; rc_bias_init := "normal"; rc_use_bias := true; rc_mode := "parallel_even" |}.
(** 164-179 *)
Definition shipped_ferminet : ferminet_config :=
  {| fc_streams := shipped_streams; fc_backflow := shipped_backflow shipped_layers "tanh"; fc_ndeterminants := 1; fc_kernel_init_orbital_linear := "orthogonal";
     fc_kernel_init_envelope_dim := "ones"; fc_kernel_init_envelope_ion := "ones"; fc_envelope_softening := Fin 0; fc_bias_init_orbital_linear := "normal";
     fc_orbitals_use_bias := true; fc_isotropic_decay := true; fc_use_det_resnet := false; fc_det_resnet := shipped_resnet; fc_determinant_fn_mode := "parallel_even"; fc_full_det := false |}.
(** 207-231 *)
Definition shipped_hidden : hidden_config :=
  {| hc_net := shipped_ferminet; hc_nhidden := [2; 2]%nat; hc_separate_backflow := false; hc_streams := shipped_streams; hc_backflow := shipped_backflow shipped_layers "tanh";
     hc_kernel_initializer := "orthogonal"; hc_bias_initializer := "normal"; hc_use_bias := true |}.
(** 186-202 *)
Definition shipped_antieq : antieq_model_config :=
  {| qc_streams := shipped_streams; qc_backflow := shipped_backflow shipped_layers "tanh"; qc_kernel_init_orbital_linear := "orthogonal"; qc_kernel_init_envelope_dim := "ones";
     qc_kernel_init_envelope_ion := "ones"; qc_bias_init_orbital_linear := "normal"; qc_orbitals_use_bias := true; qc_isotropic_decay := true; qc_use_products_covariance := true;
     qc_invariance := shipped_backflow [[32]; [32]; [1]]%nat "tanh"; qc_products_kernel_init := "orthogonal"; qc_products_use_weights := false; qc_multiply_by_eq_features := false |}.
(** 234-274 *)
Definition shipped_explicit : explicit_config :=
  {| xc_streams := shipped_streams; xc_backflow := shipped_backflow shipped_layers "tanh"; xc_antisym_type := "generic"; xc_rank := 1; xc_ndense_resnet := 64; xc_nlayers_resnet := 2;
     xc_kernel_init_resnet := "orthogonal"; xc_bias_init_resnet := "normal"; xc_activation_fn_resnet := "tanh"; xc_resnet_use_bias := true;
     xc_jastrow := {| jc_type := "backflow_based"; jc_one_body_kernel_init := "ones"; jc_init_ee_strength := Fin 1; jc_trainable := true; jc_use_separate_backflow := true;
                      jc_backflow := shipped_backflow shipped_layers "gelu" |} |}.
(** 204-276, with the type chosen by the user (the default is "ferminet"). *)
Definition shipped_sections (model_type : string) : model_sections :=
  {| ms_type := model_type; ms_ferminet := shipped_ferminet; ms_embedded := shipped_hidden; ms_extended := shipped_hidden; ms_cofactor := shipped_antieq;
     ms_per_particle := shipped_antieq; ms_explicit := shipped_explicit |}.
(** 313-366 *)
Definition shipped_schedule : schedule_cfg := {| sc_type := "inverse_time"; sc_rate := 5 / 100; sc_decay := 1 / 10000 |}.
Definition shipped_optimizer (optimizer_type : string) : opt_cfg :=
  {| oc_type := optimizer_type; oc_kfac_schedule := shipped_schedule; oc_kfac_damping := 1 / 1000;
     oc_adam := {| ad_b1 := 9 / 10; ad_b2 := 999 / 1000; ad_eps := 1 / 100000000; ad_eps_root := 0; ad_schedule := shipped_schedule |};
     oc_sgd := {| sg_momentum := 0; sg_nesterov := false; sg_schedule := shipped_schedule |};
     oc_sr := {| sr_damping := 1; sr_maxiter := 10; sr_descent_type := "sgd"; sr_norm_constraint := 1 / 1000; sr_mode_name := "lazy"; sr_schedule := shipped_schedule |};
     oc_spring := {| sp_mu := 99 / 100; sp_momentum := 0; sp_damping := 1 / 1000; sp_constrain_norm := true; sp_norm_constraint := 1 / 1000; sp_schedule := shipped_schedule |} |}.
(** 293-312, 373-407; an evaluation clips nothing. *)
Definition shipped_walk : walk_cfg := {| wc_nchains := 2 * 1000; wc_nburn := 5 * 1000; wc_nsteps := 10; wc_nmoves := 100; wc_std := 1 / 4 |}.
Definition shipped_energy (clip : R) (nan_safe : bool) : energy_config :=
  {| ec_type := "standard"; ec_ibp_parts := ["kinetic"; "ei"; "ee"]; ec_sample_parts := ["kinetic"; "ei"; "ee"]; ec_nparticles := 1; ec_clip_threshold := clip; ec_clip_center := "mean";
     ec_nan_safe := nan_safe; ec_nchains := 2 * 1000 |}.
(** 279-288, 291-390: the shipped configuration with a molecule, a model type, an optimiser and a log directory of the user's choice. *)
Definition shipped_job (ion_pos : list (list R)) (ion_charges : list R) (nelec : list nat) (model_type optimizer_type logdir : string) : job_config :=
  {| jc_ion_pos := ion_pos; jc_ion_charges := ion_charges; jc_nelec := nelec; jc_ei_softening := 0; jc_ee_softening := 0; jc_model := shipped_sections model_type; jc_walk := shipped_walk;
     jc_energy := shipped_energy 5 true; jc_optimizer := shipped_optimizer optimizer_type; jc_record_param_l1_norm := false; jc_nepochs := 200 * 1000; jc_logdir := Some logdir;
     jc_checkpoint_every := Some (5 * 1000)%nat; jc_best_checkpoint_every := Some 100%nat; jc_checkpoint_dir := "checkpoints"; jc_checkpoint_variance_scale := 10; jc_check_for_nans := false;
     jc_record_amplitudes := false; jc_nhistory_max := 200; jc_eval_walk := shipped_walk; jc_eval_energy := shipped_energy 0 false; jc_eval_use_training_data := false;
     jc_eval_record_amplitudes := false; jc_eval_record_local_energies := true; jc_eval_nepochs := 20 * 1000 |}.
End Shipped.
