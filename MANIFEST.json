{
 "claims": [
  {
   "property": "C01",
   "status": "proved",
   "theorems": [
    "C01_regular_checkpoints"
   ],
   "note": "Exact list of regular checkpoint writes of a run; epochs without metrics write nothing (vmc.py 124)."
  },
  {
   "property": "C02",
   "status": "proved",
   "theorems": [
    "C02_resume_reproduces"
   ],
   "note": "For every checkpoint file of a run (regular, best, NaN diagnostic)."
  },
  {
   "property": "C03",
   "status": "proved",
   "theorems": [
    "C03_one_line_per_epoch",
    "C03_amplitude_lines",
    "C03_resume_append_same_file",
    "C03_epoch_zero_refuted"
   ],
   "note": "Append-resume equals the uninterrupted file for stored epoch > 0; stored epoch 0 refuted."
  },
  {
   "property": "C04",
   "status": "proved",
   "theorems": [
    "C04_best_checkpoint"
   ],
   "note": "Exact real arithmetic; earliest argmin."
  },
  {
   "property": "C05",
   "status": "proved",
   "theorems": [
    "C05_nan_disables_best",
    "C05_unconditional_best_refuted"
   ],
   "note": ""
  },
  {
   "property": "C06",
   "status": "proved",
   "theorems": [
    "C06_nan_abort"
   ],
   "note": ""
  },
  {
   "property": "C07",
   "status": "proved",
   "theorems": [
    "C07_no_logdir",
    "C07_logging_is_passive",
    "C07_nan_check_ignored_refuted"
   ],
   "note": ""
  },
  {
   "property": "C08",
   "status": "proved",
   "theorems": [
    "C08_running_average",
    "C08_window_too_short_refuted",
    "C08_nhistory_one_nan",
    "C08_nhistory_one_no_best"
   ],
   "note": "Exact real arithmetic."
  },
  {
   "property": "C09",
   "status": "proved",
   "theorems": [
    "C09_written_is_prefix",
    "C09_all_written_on_exit",
    "C09_no_deadlock",
    "C09_close_terminates"
   ],
   "note": "All interleavings of a two-thread transition system, time-outs at any moment, body left normally or by an exception."
  },
  {
   "property": "C10",
   "status": "proved",
   "theorems": [
    "C10_failed_write_loses_rest",
    "C10_exit_means_written_refuted"
   ],
   "note": ""
  },
  {
   "property": "C11",
   "status": "proved",
   "theorems": [
    "C11_regular_intact",
    "C11_one_truncated_file",
    "C11_crash_recovery",
    "C11_overwrite_not_atomic",
    "C11_best_intact_refuted"
   ],
   "note": "Crash after any number of file operations; every file of a run is written in the same number of pieces."
  },
  {
   "property": "C12",
   "status": "proved",
   "theorems": [
    "C12_unique_names",
    "C12_no_separator",
    "C12_trailing_separator_refuted"
   ],
   "note": ""
  },
  {
   "property": "C13",
   "status": "proved",
   "theorems": [
    "C13_load_tuplifies",
    "C13_roundtrip",
    "C13_unchanged_iff",
    "C13_reload_of_reload",
    "C13_dict_in_seq_refuted"
   ],
   "note": ""
  },
  {
   "property": "C14",
   "status": "proved",
   "theorems": [
    "C14_roundtrip",
    "C14_unwrapped_files",
    "C14_distributed_roundtrip",
    "C14_tuple_params_refuted"
   ],
   "note": ""
  },
  {
   "property": "C15",
   "status": "proved",
   "theorems": [
    "C15_conflicts",
    "C15_one_source",
    "C15_reload_chain"
   ],
   "note": ""
  },
  {
   "property": "C16",
   "status": "proved",
   "theorems": [
    "C16_copy_succeeds",
    "C16_copy_is_unshared",
    "C16_override_is_local"
   ],
   "note": ""
  },
  {
   "property": "C17",
   "status": "proved",
   "theorems": [
    "C17_acceptance"
   ],
   "note": ""
  },
  {
   "property": "C18",
   "status": "proved",
   "theorems": [
    "C18_stationary_plain",
    "C18_stationary_log",
    "C18_gaussian_balance",
    "C18_stationary_density_plain",
    "C18_stationary_density_log",
    "C18_gaussian_density",
    "C18_stationary_interval",
    "C18_total_probability"
   ],
   "note": "Stationarity on any finite state space and any symmetric proposal; on continuous positions as a pointwise statement about densities, for any integral that is homogeneous on the rejection integrand and any symmetric proposal density; the Gaussian proposals of the code have such a density in any dimension. With the Riemann integral everything is carried out for one coordinate in an interval, including that total probability is kept. Not modelled: multi-dimensional integration as such (it enters as the functional named integral); an adapting step width is not a fixed kernel."
  },
  {
   "property": "C19",
   "status": "proved",
   "theorems": [
    "C19_step_atomic",
    "C19_always_consistent"
   ],
   "note": ""
  },
  {
   "property": "C20",
   "status": "proved",
   "theorems": [
    "C20_walk",
    "C20_walk_distributed"
   ],
   "note": ""
  },
  {
   "property": "C21",
   "status": "proved",
   "theorems": [
    "C21_keys_never_reused",
    "C21_step_reads_only_counted_keys",
    "C21_update_reads_only_counted_keys",
    "C21_training_as_counted",
    "C21_eval_random_particle_refuted"
   ],
   "note": "Keys are elements of the free key tree (split/fold_in derivations); the generator itself is not modelled."
  },
  {
   "property": "C22",
   "status": "proved",
   "theorems": [
    "C22_dynamic_width"
   ],
   "note": ""
  },
  {
   "property": "C23",
   "status": "proved",
   "theorems": [
    "C23_nodes"
   ],
   "note": ""
  },
  {
   "property": "C24",
   "status": "proved",
   "theorems": [
    "C24_fft_is_direct"
   ],
   "note": "Exact arithmetic; the discrete Fourier transform and its inverse are modelled by their defining complex sums."
  },
  {
   "property": "C25",
   "status": "proved",
   "theorems": [
    "C25_tau_is_initial_minimum_sequence",
    "C25_min_upto_is_minimum",
    "C25_tau_bounds",
    "C25_tail_irrelevant",
    "C25_summary",
    "C25_error_bar_is_number_refuted"
   ],
   "note": ""
  },
  {
   "property": "C26",
   "status": "proved",
   "theorems": [
    "C26_multi_chain",
    "C26_shift_and_scale",
    "C26_one_chain"
   ],
   "note": ""
  },
  {
   "property": "C27",
   "status": "proved",
   "theorems": [
    "C27_distribute",
    "C27_distribute_tree",
    "C27_replicate_and_restore"
   ],
   "note": ""
  },
  {
   "property": "C28",
   "status": "proved",
   "theorems": [
    "C28_mean_of_means",
    "C28_nanmean_even",
    "C28_nanmean_sharding_refuted"
   ],
   "note": "Exact arithmetic. The NaN-safe average is the global one only if every device has equally many numbers; refuted otherwise."
  },
  {
   "property": "C29",
   "status": "proved",
   "theorems": [
    "C29_clipping_window",
    "C29_idempotent",
    "C29_configuration",
    "C29_mean_centre_spreads_nan",
    "C29_median_centre_contains_nan",
    "C29_sharding_independence_refuted"
   ],
   "note": ""
  },
  {
   "property": "C30",
   "status": "proved",
   "theorems": [
    "C30_statistics",
    "C30_noclip_metrics"
   ],
   "note": ""
  },
  {
   "property": "C31",
   "status": "proved",
   "theorems": [
    "C31_gradient_is_covariance",
    "C31_gradient_is_derivative",
    "C31_shift_and_eigenstate",
    "C31_unbiased",
    "C31_generic_unbiased",
    "C31_nan_safe_gradient_refuted",
    "C31_errors"
   ],
   "note": "Unbiasedness over exact independent sampling on any finite state space; reverse-mode differentiation modelled by the derivative rule of the estimator (C31_gradient_is_derivative ties it to the analytic derivative)."
  },
  {
   "property": "C32",
   "status": "proved",
   "theorems": [
    "C32_sum_of_terms",
    "C32_any_order",
    "C32_single_and_empty"
   ],
   "note": ""
  },
  {
   "property": "C33",
   "status": "proved",
   "theorems": [
    "C33_kinetic_energy"
   ],
   "note": "Automatic differentiation of the abstract wavefunction is the analytic derivative."
  },
  {
   "property": "C34",
   "status": "proved",
   "theorems": [
    "C34_electron_order",
    "C34_ion_order",
    "C34_isometry",
    "C34_translation_reflection",
    "C34_signs",
    "C34_finite"
   ],
   "note": ""
  },
  {
   "property": "C35",
   "status": "proved",
   "theorems": [
    "C35_each_pair_once",
    "C35_sampled_weights",
    "C35_all_particles",
    "C35_unbiased",
    "C35_orders_complete",
    "C35_boundaries"
   ],
   "note": ""
  },
  {
   "property": "C36",
   "status": "proved",
   "theorems": [
    "C36_kinetic_unbiased",
    "C36_whole_particles",
    "C36_local_energy_unbiased",
    "C36_two_dimensions_refuted",
    "C36_too_many_particles_refuted"
   ],
   "note": "The claims about other dimensions and too many particles are refutations with witnesses."
  },
  {
   "property": "C37",
   "status": "proved",
   "theorems": [
    "C37_norm_bounds",
    "C37_backward_rule",
    "C37_softening_at_zero_refuted"
   ],
   "note": "One displacement at a time; for several displacements the softening cotangent of the code is not the true one (not modelled, noted in DESIGN.md)."
  },
  {
   "property": "C38",
   "status": "proved",
   "theorems": [
    "C38_laplacian_formula",
    "C38_laplacian_is_coulomb",
    "C38_softening_refuted",
    "C38_gradient",
    "C38_divergence"
   ],
   "note": ""
  },
  {
   "property": "C39",
   "status": "proved",
   "theorems": [
    "C39_local_energy",
    "C39_constant_iff"
   ],
   "note": "Constant iff decay = 2Z/(d-1) for d >= 2; the formula for every d >= 1."
  },
  {
   "property": "C40",
   "status": "proved",
   "theorems": [
    "C40_hermite",
    "C40_hermite_count",
    "C40_hermite_equation",
    "C40_orbital_eigenfunction",
    "C40_local_energy"
   ],
   "note": ""
  },
  {
   "property": "C41",
   "status": "proved",
   "theorems": [
    "C41_exchange",
    "C41_absent_species",
    "C41_estimator",
    "C41_singlet_triplet"
   ],
   "note": ""
  },
  {
   "property": "C42",
   "status": "proved",
   "theorems": [
    "C42_split_partitions",
    "C42_sizes_agree",
    "C42_sizes_add_up",
    "C42_every_specification",
    "C42_spin_split_describes",
    "C42_uneven_split_raises",
    "C42_single_species_refuted"
   ],
   "note": "One species is the exception: its specification is the empty list and get_nelec_per_split raises."
  },
  {
   "property": "C43",
   "status": "proved",
   "theorems": [
    "C43_layer_equivariant",
    "C43_backflow_equivariant",
    "C43_input_streams_equivariant"
   ],
   "note": ""
  },
  {
   "property": "C49",
   "status": "proved",
   "theorems": [
    "C49_invariant_tensor_invariant"
   ],
   "note": ""
  },
  {
   "property": "C50",
   "status": "proved",
   "theorems": [
    "C50_one_body_formula",
    "C50_one_body_invariant",
    "C50_two_body_formula",
    "C50_two_body_invariant",
    "C50_backflow_jastrow_invariant",
    "C50_chargeless_value",
    "C50_chargeless_zero",
    "C50_chargeless_other_strength_refuted",
    "C50_equal_rates",
    "C50_per_ion_rates_refuted"
   ],
   "note": "C50_per_ion_rates_refuted: one decay rate per ion is documented (jastrow.py:70-80), but the parameter is a single number."
  },
  {
   "property": "C51",
   "status": "proved",
   "theorems": [
    "C51_roundtrip",
    "C51_product",
    "C51_sum",
    "C51_weighted_sums",
    "C51_determinant_products",
    "C51_all_zero_refuted"
   ],
   "note": ""
  },
  {
   "property": "C52",
   "status": "proved",
   "theorems": [
    "C52_dense_with_bias",
    "C52_dense_without_bias",
    "C52_resnet",
    "C52_zero_skip_refuted"
   ],
   "note": ""
  },
  {
   "property": "C54",
   "status": "proved",
   "theorems": [
    "C54_shapes",
    "C54_ion_features",
    "C54_pair_features",
    "C54_softening",
    "C54_without_ions",
    "C54_without_norm_refuted"
   ],
   "note": "The unrestricted statement is refuted by C54_without_norm_refuted."
  },
  {
   "property": "C55",
   "status": "proved",
   "theorems": [
    "C55_own_average_first",
    "C55_average",
    "C55_cyclic_relabelling"
   ],
   "note": ""
  },
  {
   "property": "C45",
   "status": "proved",
   "theorems": [
    "C45_signs_are_parities",
    "C45_parity_of_exchanges",
    "C45_permuted_arrays"
   ],
   "note": ""
  },
  {
   "property": "C46",
   "status": "proved",
   "theorems": [
    "C46_factorized_antisymmetric",
    "C46_generic_antisymmetric",
    "C46_exchange",
    "C46_vanishes_at_coincidence",
    "C46_generic_fixes_antisymmetric",
    "C46_factorized_fixes_antisymmetric"
   ],
   "note": "At a coincidence the value is exactly zero for functions with finite values; with overflowing functions it can only be zero or NaN."
  },
  {
   "property": "C47",
   "status": "proved",
   "theorems": [
    "C47_covariant",
    "C47_covariant_arrays",
    "C47_invariant",
    "C47_covariant_slog",
    "C47_products",
    "C47_every_pattern_once"
   ],
   "note": ""
  },
  {
   "property": "C48",
   "status": "proved",
   "theorems": [
    "C48_antiequivariant",
    "C48_expansion",
    "C48_entries",
    "C48_layers",
    "C48_layers_without_ions",
    "C48_features"
   ],
   "note": ""
  },
  {
   "property": "C53",
   "status": "proved",
   "theorems": [
    "C53_per_particle_layers",
    "C53_cofactor_layers_refuted",
    "C53_cofactor_layers_when"
   ],
   "note": "The statement for the two cofactor layers is refuted by C53_cofactor_layers_refuted for every configuration with a bias or isotropic decay."
  },
  {
   "property": "C44",
   "status": "proved",
   "theorems": [
    "C44_antisymmetric",
    "C44_exchange",
    "C44_defined",
    "C44_pairwise_raises",
    "C44_vanishes_without_determinant_fn_refuted",
    "C44_vanishes_with_determinant_fn",
    "C44_resnet_determinant_fn_finite"
   ],
   "note": "Antisymmetry holds in all modes. That it vanishes at coincidences is refuted for models without determinant function, which return NaN there; with one it is zero, or NaN if orbitals overflow."
  },
  {
   "property": "C62",
   "status": "proved",
   "theorems": [
    "C62_embedded_antisymmetric",
    "C62_extended_antisymmetric",
    "C62_embedded_coincidence",
    "C62_extended_coincidence"
   ],
   "note": ""
  },
  {
   "property": "C63",
   "status": "proved",
   "theorems": [
    "C63_antisymmetric",
    "C63_coincidence",
    "C63_weighted_products_refuted"
   ],
   "note": "The statement for use_weights=True is refuted by C63_weighted_products_refuted."
  },
  {
   "property": "C64",
   "status": "proved",
   "theorems": [
    "C64_antisymmetric",
    "C64_coincidence"
   ],
   "note": ""
  },
  {
   "property": "C56",
   "status": "proved",
   "theorems": [
    "C56_unique_minimiser",
    "C56_normal_equations",
    "C56_momentum_and_shift",
    "C56_remembered_direction"
   ],
   "note": "Exact arithmetic; solve(assume_a='pos') is modelled by elimination."
  },
  {
   "property": "C57",
   "status": "proved",
   "theorems": [
    "C57_norm_constraint",
    "C57_single",
    "C57_each_device_refuted",
    "C57_replicas_refuted"
   ],
   "note": "Equality of replicas is refuted: the SPRING direction is computed from local walkers only."
  },
  {
   "property": "C58",
   "status": "proved",
   "theorems": [
    "C58_operators_agree",
    "C58_positive_definite",
    "C58_direction",
    "C58_truncated"
   ],
   "note": "Exact arithmetic; jax's conjugate gradient solver is modelled from its definition."
  },
  {
   "property": "C59",
   "status": "proved",
   "theorems": [
    "C59_norm_constraint",
    "C59_fisher_norm",
    "C59_negative_inner_product_refuted"
   ],
   "note": ""
  },
  {
   "property": "C60",
   "status": "proved",
   "theorems": [
    "C60_constant",
    "C60_inverse_time",
    "C60_rejected"
   ],
   "note": ""
  },
  {
   "property": "C61",
   "status": "proved",
   "theorems": [
    "C61_training",
    "C61_evaluation"
   ],
   "note": "Evaluation with random_particle local energies returns a batch of keys instead of a key (C21_eval_random_particle_refuted)."
  },
  {
   "property": "C65",
   "status": "proved",
   "theorems": [
    "C65_resumed_job",
    "C65_spring_refuted",
    "C65_new_optimizer_state"
   ],
   "note": "Without equal copies (SPRING on several devices) it is refuted by C65_spring_refuted; for a checkpoint with stored epoch 0 by C03_epoch_zero_refuted."
  },
  {
   "property": "C66",
   "status": "proved",
   "theorems": [
    "C66_best_since_resume",
    "C66_overall_best_refuted"
   ],
   "note": "That it is the best of the whole job is refuted by C66_overall_best_refuted."
  },
  {
   "property": "C67",
   "status": "proved",
   "theorems": [
    "C67_evaluation",
    "C67_fresh_directory",
    "C67_no_evaluation_after_nans",
    "C67_single_sample_raises",
    "C67_reused_directory_refuted"
   ],
   "note": ""
  },
  {
   "property": "C68",
   "status": "proved",
   "theorems": [
    "C68_standard",
    "C68_random_particle",
    "C68_ibp",
    "C68_errors",
    "C68_unknown_parts_refuted"
   ],
   "note": "That unknown part names are rejected is refuted by C68_unknown_parts_refuted."
  },
  {
   "property": "C69",
   "status": "proved",
   "theorems": [
    "C69_zero_variance",
    "C69_random_particle",
    "C69_ibp_refuted"
   ],
   "note": "For integration by parts it is refuted by C69_ibp_refuted."
  },
  {
   "property": "C70",
   "status": "proved",
   "theorems": [
    "C70_like_electrons",
    "C70_translation"
   ],
   "note": ""
  },
  {
   "property": "C71",
   "status": "proved",
   "theorems": [
    "C71_never_overwritten",
    "C71_every_configuration_kept",
    "C71_own_directories",
    "C71_concurrent",
    "C71_same_logdir_reload_refuted",
    "C71_concurrent_directories_refuted"
   ],
   "note": "Default reload of a same_logdir job and uniqueness under concurrent starts are refuted by C71_same_logdir_reload_refuted and C71_concurrent_directories_refuted."
  },
  {
   "property": "C72",
   "status": "proved",
   "theorems": [
    "C72_accepted",
    "C72_antisymmetric",
    "C72_log_psi_invariant",
    "C72_backflow_options",
    "C72_ferminet_options",
    "C72_per_particle_options",
    "C72_only_chosen_section",
    "C72_ferminet_defined",
    "C72_norm_softening_ignored_refuted",
    "C72_determinant_fn_mode_ignored_refuted",
    "C72_cofactor_options_refuted"
   ],
   "note": "That every option has its documented effect is refuted by the three _refuted theorems."
  },
  {
   "property": "C73",
   "status": "proved",
   "theorems": [
    "C73_orbital_value",
    "C73_envelope_bounded",
    "C73_envelope_decays",
    "C73_isotropic",
    "C73_anisotropic_refuted",
    "C73_per_ion_rates_refuted"
   ],
   "note": "Dependence on distances only is refuted for the anisotropic envelope, as intended. C73_per_ion_rates_refuted: isotropic rates are documented per ion and orbital, but are per orbital."
  },
  {
   "property": "C74",
   "status": "proved",
   "theorems": [
    "C74_accepted",
    "C74_sgd",
    "C74_adam",
    "C74_adam_bounded",
    "C74_sr",
    "C74_sr_trust_region",
    "C74_spring",
    "C74_resume",
    "C74_sr_momentum_refuted",
    "C74_sr_adam_refuted",
    "C74_unsupported_type_refuted"
   ],
   "note": "The trust region with momentum or Adam and the documented exception are refuted by the _refuted theorems; KFAC's step is third-party and not covered."
  },
  {
   "property": "C75",
   "status": "proved",
   "theorems": [
    "C75_initial_positions",
    "C75_draws",
    "C75_initial_walkers",
    "C75_new_eval_walkers",
    "C75_training_from_start"
   ],
   "note": "jax.random.choice enters through its contract (number of indices, range, no repetition without replacement)."
  },
  {
   "property": "C76",
   "status": "proved",
   "theorems": [
    "C76_translation",
    "C76_log_psi",
    "C76_embedded_refuted"
   ],
   "note": "For the embedded-particle model it is refuted by C76_embedded_refuted."
  },
  {
   "property": "C77",
   "status": "proved",
   "theorems": [
    "C77_translation",
    "C77_fresh_job"
   ],
   "note": "KFAC is an arbitrary third-party step, assumed for C77 not to see the translation. SPRING on several devices and random-particle energies in evaluation are outside the job model."
  },
  {
   "property": "C78",
   "status": "proved",
   "theorems": [
    "C78_accepted",
    "C78_training_never_fails",
    "C78_resumed_job",
    "C78_training",
    "C78_evaluation",
    "C78_checkpoints",
    "C78_ferminet_evaluates"
   ],
   "note": "Same limits of the job model as C77; the formulas for the energies are for the standard local energy."
  },
  {
   "property": "C79",
   "status": "proved",
   "theorems": [
    "C79_random_numbers"
   ],
   "note": "Keys are symbolic paths of splits and folds, as in C21. Same limits of the job model as C77; the keys a random-particle energy or KFAC derives from an update's key are derived from that key."
  },
  {
   "property": "C80",
   "status": "proved",
   "theorems": [
    "C80_checkpoints_survive",
    "C80_every_run_can_donate",
    "C80_donated_walkers_refuted"
   ],
   "note": "Pytrees are lists of leaves. The part of the claim about the walkers' arrays is a limit of the code, shown by the refuted theorem: data.copy() copies the dictionary only."
  },
  {
   "property": "C81",
   "status": "proved",
   "theorems": [
    "C81_defined",
    "C81_model_evaluates",
    "C81_starts",
    "C81_shipped"
   ],
   "note": "Two spin species or more. Layer sizes of parameter arrays are always right in the model, because flax creates them; only the type of an initialiser is modelled."
  },
  {
   "property": "C82",
   "status": "proved",
   "theorems": [
    "C82_number",
    "C82_ferminet",
    "C82_coincidence",
    "C82_empty_species_refuted"
   ],
   "note": "Exact real arithmetic: overflow and rounding are not modelled. That the hypothesis on the spins is needed is shown by C82_empty_species_refuted. Coincidence excludes the weighted products readout, which is not antisymmetric (C63)."
  },
  {
   "property": "C83",
   "status": "proved",
   "theorems": [
    "C83_batched_call",
    "C83_walker_by_walker",
    "C83_other_walkers",
    "C83_antisymmetric",
    "C83_exchange",
    "C83_job"
   ],
   "note": "FermiNet only; the input of unflattened electron-ion differences (no norms although ions are given) and an empty list of ions are excluded. Reshapes of arrays without entries are simplified (M_tensor). Flax's SelfAttention is applied to each walker's rows by definition (third party)."
  },
  {
   "property": "C84",
   "status": "proved",
   "theorems": [
    "C84_smooth",
    "C84_modulus",
    "C84_ordinary_walkers",
    "C84_training",
    "C84_evaluation",
    "C84_shipped"
   ],
   "note": "Exact real arithmetic; that automatic differentiation computes derivatives is the trusted base's (C01). The standard local energy only. Same limits of the job model as C77. Anisotropic envelopes without softening are excluded: they have kinks where a projected displacement vanishes."
  },
  {
   "property": "C85",
   "status": "proved",
   "theorems": [
    "C85_statistics"
   ],
   "note": "Exact real arithmetic. Same limits of the job model as C77 and C84."
  },
  {
   "property": "C86",
   "status": "proved",
   "theorems": [
    "C86_sum",
    "C86_arrays",
    "C86_determinants",
    "C86_assumptions_hold"
   ],
   "note": "Subnormal numbers are kept (no flush to zero). The accuracy of jnp.exp and jnp.log is a hypothesis; C86_assumptions_hold shows that correctly rounded functions meet it. What jnp.linalg.slogdet returns is an input. weights=None only."
  },
  {
   "property": "C87",
   "status": "proved",
   "theorems": [
    "C87_factors",
    "C87_positive",
    "C87_order",
    "C87_scale",
    "C87_batch_size",
    "C87_blocked_factors",
    "C87_blocked_matrix",
    "C87_blocked_positive",
    "C87_blocked_inverse",
    "C87_blocked_unsupported"
   ],
   "note": "Exact real arithmetic, one device. The base class of kfac_jax (moving averages, the plain dense update, the Kronecker inverse) is third-party: the first two are modelled from their definitions, the inverse is a parameter. Which layers get which block (graph patterns) is not modelled."
  },
  {
   "property": "C88",
   "status": "proved",
   "theorems": [
    "C88_acceptance",
    "C88_special",
    "C88_walk",
    "C88_stuck",
    "C88_width_positive",
    "C88_width_zero_refuted",
    "C88_adaptation",
    "C88_plain",
    "C88_plain_underflow_refuted",
    "C88_step",
    "C88_plain_accuracy"
   ],
   "note": "Subnormal numbers are kept (no flush to zero). The accuracy of jnp.exp and the order of jnp.sum are as in C86. Random numbers are inputs. Amplitudes of size up to 2^(emax-2). The two refuted theorems show that the bound 1/2 on the shrinking factor is needed, and that plain amplitudes do not give the exact ratio."
  },
  {
   "property": "C89",
   "status": "proved",
   "theorems": [
    "C89_statistics",
    "C89_sample",
    "C89_nan_safe_same",
    "C89_variance_not_negative",
    "C89_not_finite",
    "C89_clipping",
    "C89_total_variation",
    "C89_update",
    "C89_mean_center_nan"
   ],
   "note": "Subnormal numbers are kept. jnp.sum may add in any order (with zeros); jnp.nanmedian is a parameter whose value is assumed to be a number in the range of the energies. jax.lax.pmean is the sum over devices divided by their number. Energies at most 2^k in size with 2k + 3 + precision below the exponent range for the statistics; clipping itself needs no range."
  },
  {
   "property": "C90",
   "status": "proved",
   "theorems": [
    "C90_running_average",
    "C90_drift_refuted",
    "C90_smallest_metric",
    "C90_best",
    "C90_nan_for_ever",
    "C90_best_lost_refuted"
   ],
   "note": "Subnormal numbers are kept; jnp.sqrt is the correctly rounded square root. The number of effective samples (nsamples / variance_scale, computed by Python in double precision) is a parameter, at least 1 in C90_best. The two refuted theorems show that the error of the running average must depend on all past values, and that the lower bound on the variances in C90_best is needed."
  },
  {
   "property": "C91",
   "status": "proved",
   "theorems": [
    "C91_attraction",
    "C91_repulsion",
    "C91_ions",
    "C91_local_energy",
    "C91_coincidence",
    "C91_close_refuted"
   ],
   "note": "Subnormal numbers are kept; jnp.sqrt is the correctly rounded square root; the kinetic energy is a parameter. Without nparticles (the random-particle variants are not modelled in floating point). C91_close_refuted shows that the lower bound on the distances is needed."
  },
  {
   "property": "C92",
   "status": "proved",
   "theorems": [
    "C92_safe",
    "C92_constrained",
    "C92_unchanged",
    "C92_overflow",
    "C92_nan",
    "C92_step",
    "C92_sr_safe",
    "C92_moves_refuted",
    "C92_sr_nan_refuted"
   ],
   "note": "Subnormal numbers are kept; jnp.sqrt is the correctly rounded square root; jnp.sum and pmean may add in any order. The direction of the step is a parameter (the linear solves of SR and SPRING are not modelled in floating point). The two refuted theorems show that tiny steps are lost and that SR's constraint needs more than a positive inner product."
  },
  {
   "property": "C93",
   "status": "proved",
   "theorems": [
    "C93_rate",
    "C93_rate_accuracy",
    "C93_step",
    "C93_sgd",
    "C93_momentum",
    "C93_adam",
    "C93_adam_accuracy",
    "C93_adam_frozen",
    "C93_eps_refuted"
   ],
   "note": "Subnormal numbers are kept; jnp.sqrt is the correctly rounded square root. optax is third-party and modelled from its definitions, entry by entry. Of jnp.power only that positive powers of a number in [0, 1] lie between 0 and it is assumed. 1 - b1 and 1 - b2 are given numbers in [0, 1]. C93_eps_refuted shows that a positive eps is needed."
  },
  {
   "property": "C94",
   "status": "proved",
   "theorems": [
    "C94_dense",
    "C94_bias",
    "C94_no_bias_nan",
    "C94_error",
    "C94_lost_refuted"
   ],
   "note": "Subnormal numbers are kept. Accuracy of jnp.exp and jnp.log is a hypothesis met by correctly rounded functions (C86_assumptions_hold). The product with the kernel is taken as any order of additions of the rounded products, without fused multiply-add. C94_lost_refuted: the full statement that a log -inf means a zero output is false."
  },
  {
   "property": "C95",
   "status": "proved",
   "theorems": [
    "C95_exact",
    "C95_one_input",
    "C95_accuracy",
    "C95_order_refuted"
   ],
   "note": "The function is applied to each symmetry alone (it treats the new axis as a batch axis, as its docstring demands). The version for signed logs (make_sl_array_list_fn_sign_covariant), which no model uses, is modelled in exact arithmetic only (C47). C95_order_refuted: exact oddness for every order of the additions is false with two inputs."
  },
  {
   "property": "C96",
   "status": "proved",
   "theorems": [
    "C96_never_nan",
    "C96_accuracy",
    "C96_orbitals",
    "C96_far",
    "C96_nonzero_refuted"
   ],
   "note": "Softening 0 (the default) and isotropic scaling (the default); C96_accuracy applies to any scaled displacements, anisotropic ones included. jnp.exp is any function with the properties of good_exp (S_float). C96_nonzero_refuted: zero orbitals where the exact value is not zero."
  },
  {
   "property": "C97",
   "status": "proved",
   "theorems": [
    "C97_one_body_decays",
    "C97_one_body_accuracy",
    "C97_backflow_decays",
    "C97_backflow_accuracy",
    "C97_no_electrons_nan"
   ],
   "note": "The backflow's output is a parameter; jnp.exp is any function with the properties of good_exp (S_float). The two-body Jastrow is modelled in exact arithmetic only (C50)."
  }
 ]
}