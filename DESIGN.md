# Formal model of jeffminlin/vmcnet in Rocq: design

This document says, for each property of `properties.jsonl`, what is modelled and how the property is proved; what was found out about the
code; which parts of the code are modelled and which are not; and what has to be trusted.

## General approach

* Every Python function in scope becomes a small total Gallina function with a comment citing `/repo` file and lines.  Exceptions
  (`ValueError`, `ZeroDivisionError`, ...) are values (`option` or a sum type), loops are structural recursion or folds, threads are an
  interleaving transition system, files are a finite map or a log of operations.
* Numbers.  The code computes with IEEE floats.  The model uses (1) the standard library's real numbers `R` where only algebra, inequalities
  and derivatives matter, and (2) *extended reals* `xr = Fin r | PInf | MInf | NaN` (`XReal.v`) with the IEEE rules for the special values and
  exact arithmetic on finite values, wherever NaN, infinities or division by zero are reachable; in these two, rounding, overflow of finite
  values and the sign of zero do not exist.  (3) Rounding itself is modelled for the numerical cores whose meaning could depend on it, on Flocq's
  IEEE-754 `binary_float` of *any* format (any precision and exponent range, round to nearest even, subnormals kept, sums in *any* order of
  additions): log-domain sums (M_float, C86), Metropolis steps (M_fwalk, C88), energy statistics and clipping (M_fenergy, C89), running averages
  and best checkpoints (M_fcheckpoint, C90), Coulomb potentials and local energies (M_fpotential, C91),
  norm constraints and parameter updates (M_fupdate, C92),
  schedules, SGD and Adam (M_foptax, C93), log-domain dense layers (M_fdense, C94),
  sign symmetrisation (M_fsign, C95), exponential envelopes and orbitals (M_forbital, C96),
  one-body and backflow Jastrow factors (M_fjastrow, C97).
* Arrays are functions on indices with explicit sizes, or (nested) lists.  Batch axes are handled one batch element at a time
  (except in M_tensor and M_batch, which prove this sound for the FermiNet).  Learned parameters
  are explicit arguments, so that every statement is for every value of the parameters.
* JAX transformations are modelled by their documented meaning: `jit` is the identity, `vmap` is `map`, `scan` is iteration, `grad`/`jvp` of an
  abstract wavefunction is the analytic derivative (Coquelicot's `Derive`), `pmap` is a lock-step computation on the list of device states with
  `pmean` the mean over that list.
* Random numbers: a PRNG key is a node of the free tree generated by `split` and `fold_in`; draws are arbitrary functions of the key.
  Distributional statements use finite probability spaces.

File naming in `rocq/theories`: `M_*.v` model, `S_*.v` small independent specifications (what the words of the property mean), `P_*.v` proofs,
`E_*.v` example instances, `T_*.v` property theorems (statement, short proof from the `P_` files, `Print Assumptions`, and beside each theorem an
`Example` showing that a concrete non-trivial case meets its hypotheses).  `XReal.v`, `Rsum.v`, `Det.v` are the number libraries.

## Property by property

For each property: what is modelled, how it is proved, and the theorems (all in `rocq/theories/T_*.v`).  A theorem whose name ends in
`_refuted` proves that the unrestricted English statement is false of the modelled code and gives the witness.

| id | property | modelled by | proved by | theorems |
|----|----------|-------------|-----------|----------|
| C01 | Regular checkpoints: exactly at multiples, with the pre-epoch state | `vmc_loop` (M_vmc) with arbitrary walker and update functions | induction over the epochs: the exact list of queued checkpoint writes | `C01_regular_checkpoints` |
| C02 | Resuming from a regular checkpoint reproduces the uninterrupted run | same loop; a resumed run starts from the stored record | loop composition lemma on top of C01, for every checkpoint kind | `C02_resume_reproduces` |
| C03 | Metric files: one line per epoch in order, and resume+append equals the uninterrupted file | metric writer and `copy_txt_stats` on files as lists of lines (M_files, M_io) | list algebra over the queue; witness for stored epoch 0 | `C03_one_line_per_epoch`, `C03_amplitude_lines`, `C03_resume_append_same_file`, `C03_epoch_zero_refuted` |
| C04 | Best checkpoint is the pre-epoch state of the earliest epoch with the minimal error-adjusted running average | running windows, `get_checkpoint_metric`, best tracking | loop invariant relating (saved best, pending best, metric) to the prefix arg-min | `C04_best_checkpoint` |
| C05 | A NaN energy permanently disables best checkpoints (with NaN aborts off) | same on `xr` | invariant "the metric is NaN" | `C05_nan_disables_best`, `C05_unconditional_best_refuted` |
| C06 | NaN abort: loop stops at the first NaN epoch, leaves a diagnostic checkpoint and keeps the earlier files | loop with the NaN check | induction; first NaN epoch | `C06_nan_abort` |
| C07 | Without a log directory the loop has no file effects and never reports NaNs | loop without log directory | induction; equality of trajectories | `C07_no_logdir`, `C07_logging_is_passive`, `C07_nan_check_ignored_refuted` |
| C08 | Running average is the exact mean of a sliding window | `RunningMetric` | invariant over all update sequences | `C08_running_average`, `C08_window_too_short_refuted`, `C08_nhistory_one_nan`, `C08_nhistory_one_no_best` |
| C09 | Background writer: every queued item is written exactly once, in order, for every interleaving | two-thread transition system of `ThreadedWriter` (M_writer) | inductive invariant over all reachable states; termination measure | `C09_written_is_prefix`, `C09_all_written_on_exit`, `C09_no_deadlock`, `C09_close_terminates` |
| C10 | Background writer: a failing write silently drops everything after it | same with failing writes | invariant after the crash of the writer thread; witness | `C10_failed_write_loses_rest`, `C10_exit_means_written_refuted` |
| C11 | Crash safety of checkpoints on disk | file system with truncate/write/close steps, crash after any step | invariant over all prefixes of the operation log; witness | `C11_regular_intact`, `C11_one_truncated_file`, `C11_crash_recovery`, `C11_overwrite_not_atomic`, `C11_best_intact_refuted` |
| C12 | Unique names: fresh, minimal and always found | `add_suffix_for_uniqueness`, string names, finite directory | pigeonhole on injective names; least index | `C12_unique_names`, `C12_no_separator`, `C12_trailing_separator_refuted` |
| C13 | Config JSON round trip preserves tuples | JSON trees | structural induction | `C13_load_tuplifies`, `C13_roundtrip`, `C13_unchanged_iff`, `C13_reload_of_reload`, `C13_dict_in_seq_refuted` |
| C14 | Checkpoint save/reload round trip | save/reload with wrapping of the optimizer state, get_first/replicate | case analysis and list lemmas | `C14_roundtrip`, `C14_unwrapped_files`, `C14_distributed_roundtrip`, `C14_tuple_params_refuted` |
| C15 | Reload/preset flag logic is total and exclusive | `parse_flags` as a decision function (M_config) | case analysis; induction over chains of reloads | `C15_conflicts`, `C15_one_source`, `C15_reload_chain` |
| C16 | Default configuration has no shared mutable sub-dictionaries | heap of dictionary objects with identities | heap/tree induction | `C16_copy_succeeds`, `C16_copy_is_unshared`, `C16_override_is_local` |
| C17 | Acceptance probability is min(1,|psi'|^2/|psi|^2) and lies in [0,1]; log and plain modes agree | acceptance on `xr` (M_mcmc) | real-analysis case splits | `C17_acceptance` |
| C18 | Detailed balance and stationarity of the Metropolis step | Metropolis kernel of the modelled step on any finite state space; the density of the walkers after a step on continuous positions, for any integral; Gaussian proposal density; one coordinate with the Riemann integral | finite sums; pointwise balance of densities; induction on the steps; continuity of parametric integrals and exchange of the order of integration (`P_fubini.v`) | `C18_stationary_plain`, `C18_stationary_log`, `C18_gaussian_balance`, `C18_stationary_density_plain`, `C18_stationary_density_log`, `C18_gaussian_density`, `C18_stationary_interval`, `C18_total_probability` |
| C19 | Walker updates are atomic and amplitudes stay consistent with positions | walker records, step, burn, walk, update | induction over operation sequences | `C19_step_atomic`, `C19_always_consistent` |
| C20 | walk_data is exact iteration of the step with averaged acceptance | `walk_data` scan | induction on the number of steps | `C20_walk`, `C20_walk_distributed` |
| C21 | No PRNG key is consumed twice during a run | key paths consumed by a whole run (M_keys) | prefix-freeness invariant | `C21_keys_never_reused`, `C21_step_reads_only_counted_keys`, `C21_update_reads_only_counted_keys`, `C21_training_as_counted`, `C21_eval_random_particle_refuted` |
| C22 | Dynamic step width: positive, bounded change rate, counters exact | move metadata state machine | invariants over histories | `C22_dynamic_width` |
| C23 | Escaping from a node: plain amplitudes always accept, log amplitudes at -inf can be stuck | acceptance and step at zero amplitude | case analysis on `xr` | `C23_nodes` |
| C24 | Autocorrelation via zero-padded FFT equals the direct definition | FFT, inverse FFT as their defining complex sums | orthogonality of roots of unity, convolution identity | `C24_fft_is_direct` |
| C25 | Integrated autocorrelation time: properties of the truncation estimator | `tau` and the summary | list inductions | `C25_tau_is_initial_minimum_sequence`, `C25_min_upto_is_minimum`, `C25_tau_bounds`, `C25_tail_irrelevant`, `C25_summary`, `C25_error_bar_is_number_refuted` |
| C26 | Multi-chain variance and autocorrelation are well normalised | multi-chain statistics | finite sums, law of total variance | `C26_multi_chain`, `C26_shift_and_scale`, `C26_one_chain` |
| C27 | Distributing walkers to devices is a bijection; bad sizes are rejected | reshape/broadcast/replicate (M_distribute) | list algebra | `C27_distribute`, `C27_distribute_tree`, `C27_replicate_and_restore` |
| C28 | Averages over devices equal the global average (and the NaN-safe ones do not) | device means and NaN means | sums; witness | `C28_mean_of_means`, `C28_nanmean_even`, `C28_nanmean_sharding_refuted` |
| C29 | Local-energy clipping: stays in the window, identity inside it, no effect on NaN-free small deviations | clipping functions (M_energy) | order reasoning on `xr`; witnesses | `C29_clipping_window`, `C29_idempotent`, `C29_configuration`, `C29_mean_centre_spreads_nan`, `C29_median_centre_contains_nan`, `C29_sharding_independence_refuted` |
| C30 | Reported energy and variance are the sample mean and unbiased sample variance | statistics of local energies | finite sums | `C30_statistics`, `C30_noclip_metrics` |
| C31 | Energy gradient estimator is twice the sample covariance of local energy and log-derivative | gradient estimator as reverse-mode computes it | finite sums, analytic derivative, finite-probability expectation | `C31_gradient_is_covariance`, `C31_gradient_is_derivative`, `C31_shift_and_eigenstate`, `C31_unbiased`, `C31_generic_unbiased`, `C31_nan_safe_gradient_refuted`, `C31_errors` |
| C32 | Combining energy terms is their sum, independent of order | `combine_local_energy_terms` | permutations of sums on `xr` | `C32_sum_of_terms`, `C32_any_order`, `C32_single_and_empty` |
| C33 | Kinetic energy from log|psi|: laplacian identity | `laplacian_psi_over_psi` with forward-over-reverse derivatives (M_physics) | chain rule (Coquelicot) | `C33_kinetic_energy` |
| C34 | Coulomb potentials: symmetry, invariance and sign | Coulomb potentials | sums, isometries | `C34_electron_order`, `C34_ion_order`, `C34_isometry`, `C34_translation_reflection`, `C34_signs`, `C34_finite` |
| C35 | Electron-electron repulsion counts every pair exactly once; sampled versions are unbiased | sampled and full electron-electron potentials | averages over all orders | `C35_each_pair_once`, `C35_sampled_weights`, `C35_all_particles`, `C35_unbiased`, `C35_orders_complete`, `C35_boundaries` |
| C36 | Random-particle kinetic energy is unbiased in 3D (and wrong in other dimensions) | random-particle local energy | averages over all orders; witnesses | `C36_kinetic_unbiased`, `C36_whole_particles`, `C36_local_energy_unbiased`, `C36_two_dimensions_refuted`, `C36_too_many_particles_refuted` |
| C37 | Softened norm and its hand-written derivative | `compute_soft_norm` and its custom backward rule | derivatives | `C37_norm_bounds`, `C37_backward_rule`, `C37_softening_at_zero_refuted` |
| C38 | Integration-by-parts potential: its laplacian is the Coulomb potential only without softening | ibp auxiliary potential and its gradient | second derivatives; witness | `C38_laplacian_formula`, `C38_laplacian_is_coulomb`, `C38_softening_refuted`, `C38_gradient`, `C38_divergence` |
| C39 | Hydrogen-like atom has constant local energy at the exact decay | hydrogen-like atom example | derivatives of the norm | `C39_local_energy`, `C39_constant_iff` |
| C40 | Harmonic-oscillator orbitals are Hermite functions and eigenfunctions | Hermite recursion and oscillator example | induction, determinants, derivatives | `C40_hermite`, `C40_hermite_count`, `C40_hermite_equation`, `C40_orbital_eigenfunction`, `C40_local_energy` |
| C41 | Spin-squared estimator | spin exchange estimator | algebra of sign-log values | `C41_exchange`, `C41_absent_species`, `C41_estimator`, `C41_singlet_triplet` |
| C42 | Splitting particles by spin is exact | `jnp.split`, spin split helpers (M_models) | list algebra | `C42_split_partitions`, `C42_sizes_agree`, `C42_sizes_add_up`, `C42_every_specification`, `C42_spin_split_describes`, `C42_uneven_split_raises`, `C42_single_species_refuted` |
| C43 | Backflow streams are permutation equivariant | all equivariant layers incl. attention and input streams | permutation lemmas for each layer, induction over blocks | `C43_layer_equivariant`, `C43_backflow_equivariant`, `C43_input_streams_equivariant` |
| C44 | FermiNet wavefunction is antisymmetric (all determinant modes) | FermiNet.__call__ (M_construct) with all determinant modes | determinant sign under row exchange (Det.v), equivariance | `C44_antisymmetric`, `C44_exchange`, `C44_defined`, `C44_pairwise_raises`, `C44_vanishes_without_determinant_fn_refuted`, `C44_vanishes_with_determinant_fn`, `C44_resnet_determinant_fn_finite` |
| C45 | Lexicographic permutation signs are right | lexicographic signs, itertools order | bijection to permutations, parity (mathcomp perm) | `C45_signs_are_parities`, `C45_parity_of_exchanges`, `C45_permuted_arrays` |
| C46 | Explicit antisymmetrisation is antisymmetric | Factorized/GenericAntisymmetrize | reindexing of the sum over orders | `C46_factorized_antisymmetric`, `C46_generic_antisymmetric`, `C46_exchange`, `C46_vanishes_at_coincidence`, `C46_generic_fixes_antisymmetric`, `C46_factorized_fixes_antisymmetric` |
| C47 | Sign symmetrisation yields covariant/invariant functions | sign orbits | reindexing of sums over sign patterns | `C47_covariant`, `C47_covariant_arrays`, `C47_invariant`, `C47_covariant_slog`, `C47_products`, `C47_every_pattern_once` |
| C48 | Cofactor antiequivariance | cofactor and per-particle layers | Laplace expansion, determinant signs | `C48_antiequivariant`, `C48_expansion`, `C48_entries`, `C48_layers`, `C48_layers_without_ions`, `C48_features` |
| C49 | Invariant tensor is permutation invariant | SplitMeanDense, InvariantTensor | sums are permutation invariant | `C49_invariant_tensor_invariant` |
| C50 | Jastrow factors are permutation invariant and have their documented limits | Jastrow factors | sums; permutation invariance; witness | `C50_one_body_formula`, `C50_one_body_invariant`, `C50_two_body_formula`, `C50_two_body_invariant`, `C50_backflow_jastrow_invariant`, `C50_chargeless_value`, `C50_chargeless_zero`, `C50_chargeless_other_strength_refuted`, `C50_equal_rates`, `C50_per_ion_rates_refuted` |
| C51 | Sign-log arithmetic is a faithful representation of real arithmetic | slog helpers, log_linear_exp | exp/log identities | `C51_roundtrip`, `C51_product`, `C51_sum`, `C51_weighted_sums`, `C51_determinant_products`, `C51_all_zero_refuted` |
| C52 | Log-domain dense layers equal ordinary dense layers in the exponential domain | LogDomainDense/ResNet | simulation of the plain network | `C52_dense_with_bias`, `C52_dense_without_bias`, `C52_resnet`, `C52_zero_skip_refuted` |
| C53 | Orbital cofactor layers pass their configuration to the orbital layer | Python positional binding of dataclass fields | computation for every configuration | `C53_per_particle_layers`, `C53_cofactor_layers_refuted`, `C53_cofactor_layers_when` |
| C54 | Input streams: flattened one-electron input in every configuration | compute_input_streams | case analysis | `C54_shapes`, `C54_ion_features`, `C54_pair_features`, `C54_softening`, `C54_without_ions`, `C54_without_norm_refuted` |
| C55 | Spin-cyclic concatenation is consistent | cyclic concatenation | list rotation | `C55_own_average_first`, `C55_average`, `C55_cyclic_relabelling` |
| C56 | SPRING step solves its regularised least-squares problem | SPRING update, elimination solve (M_optim) | positive-definite elimination, normal equations, strict convexity | `C56_unique_minimiser`, `C56_normal_equations`, `C56_momentum_and_shift`, `C56_remembered_direction` |
| C57 | SPRING norm constraint and multi-device consistency | norm constraint on all devices | inequalities; witnesses | `C57_norm_constraint`, `C57_single`, `C57_each_device_refuted`, `C57_replicas_refuted` |
| C58 | SR Fisher operators agree and are positive definite | lazy/debug Fisher products, CG | algebra; Krylov/Bessel argument for finite termination | `C58_operators_agree`, `C58_positive_definite`, `C58_direction`, `C58_truncated` |
| C59 | SR norm constraint | SR norm constraint | inequalities; witness | `C59_norm_constraint`, `C59_fisher_norm`, `C59_negative_inner_product_refuted` |
| C60 | Learning-rate schedules | schedules | inequalities; divergence of the series | `C60_constant`, `C60_inverse_time`, `C60_rejected` |
| C61 | Parameter updates refresh the walkers' amplitudes; evaluation never changes parameters | update functions of params.py in the loop | loop invariant | `C61_training`, `C61_evaluation` |
| C62 | FermiNets with hidden particles or hidden orbital rows are antisymmetric | EmbeddedParticleFermiNet, ExtendedOrbitalMatrixFermiNet | as C44 with hidden rows | `C62_embedded_antisymmetric`, `C62_extended_antisymmetric`, `C62_embedded_coincidence`, `C62_extended_coincidence` |
| C63 | Antiequivariance networks are antisymmetric unless their products readout has weights | AntiequivarianceNet | C47 + C48 | `C63_antisymmetric`, `C63_coincidence`, `C63_weighted_products_refuted` |
| C64 | Explicitly antisymmetrised networks with Jastrow factors are antisymmetric | FactorizedAntisymmetry/GenericAntisymmetry with Jastrow | C46 + C50 | `C64_antisymmetric`, `C64_coincidence` |
| C65 | Resuming a whole job reproduces the uninterrupted job | run_molecule as a whole (M_run): training, reload, files, evaluation | C02 + C03 lifted to jobs, replicas invariant | `C65_resumed_job`, `C65_spring_refuted`, `C65_new_optimizer_state` |
| C66 | best_checkpoint.npz after a resume is the best of the resumed part | run_molecule with best checkpoints | C04 applied to the resumed part; counterexample | `C66_best_since_resume`, `C66_overall_best_refuted` |
| C67 | Evaluation after training | evaluation phase of run_molecule | closed form of the evaluation loop | `C67_evaluation`, `C67_fresh_directory`, `C67_no_evaluation_after_nans`, `C67_single_sample_raises`, `C67_reused_directory_refuted` |
| C68 | The configured local energy is the molecule's Hamiltonian acting on the wavefunction | M_setup (`assemble_mol_local_energy_fn`, `molecule_val_and_grad`) on top of M_physics | `hamiltonian` in S_setup is -1/2 laplacian + Coulomb energy written with `distance`; value of each term (C33, C35, C36, C38) summed up | `C68_standard`, `C68_random_particle`, `C68_ibp`, `C68_errors`, `C68_unknown_parts_refuted` |
| C69 | Zero-variance principle | M_setup, M_energy | constant local energies pass through clipping and statistics unchanged; covariance with a constant is 0; hydrogen atom as instance | `C69_zero_variance`, `C69_random_particle`, `C69_ibp_refuted` |
| C70 | The configured local energy respects the symmetries of the molecule | M_setup, M_physics | line derivatives of a symmetric function along renumbered coordinates; pair form of the gradient of U | `C70_like_electrons`, `C70_translation` |
| C71 | No job overwrites another job's saved configuration; log directories are unique | M_logdir: a file system of normalised paths, `os.makedirs`, `open(.., "w")`, `_save_to_unique_json`, `_get_logdir_and_save_config`, histories of events, two interleaved starts | invariant over histories (what exists lies in a directory; JSON files are only created at free paths); termination of the name search up to spelling of paths; invariant over schedules; witness schedule | `C71_never_overwritten`, `C71_every_configuration_kept`, `C71_own_directories`, `C71_concurrent`, `C71_same_logdir_reload_refuted`, `C71_concurrent_directories_refuted` |
| C72 | The configured wavefunction is antisymmetric, whatever the model section says | M_dispatch: the model sections of the configuration, name lookups of initialisers, activations and modes, the from_config constructors and the choice by type; M_construct for the models themselves | case analysis over the six types, reducing to C44, C62-C64; acceptance is an iff proved section by section | `C72_accepted`, `C72_antisymmetric`, `C72_log_psi_invariant`, `C72_backflow_options`, `C72_ferminet_options`, `C72_per_particle_options`, `C72_only_chosen_section`, `C72_ferminet_defined`, `C72_norm_softening_ignored_refuted`, `C72_determinant_fn_mode_ignored_refuted`, `C72_cofactor_options_refuted` |
| C73 | Orbitals are the documented product of a linear part and exponential envelopes | M_models: dense layers per population, isotropic and anisotropic scaling, softened exponential envelopes, their product | evaluation on real inputs to the textbook formula (S_features), bounds from sqrt(r^2+s^2)-s >= max(0, r-s) | `C73_orbital_value`, `C73_envelope_bounded`, `C73_envelope_decays`, `C73_isotropic`, `C73_anisotropic_refuted`, `C73_per_ion_rates_refuted` |
| C74 | The configured optimiser performs the documented updates | M_optax: the optimiser section, the dispatch on names, optax.sgd and optax.adam from their definitions, one update of SGD/Adam/SR/SPRING, runs over histories | closed forms by induction on the history; Adam bound by Cauchy-Schwarz on the discounted sums; SR and SPRING from the norm coefficient (C57, C59); refutations on a one-parameter problem | `C74_accepted`, `C74_sgd`, `C74_adam`, `C74_adam_bounded`, `C74_sr`, `C74_sr_trust_region`, `C74_spring`, `C74_resume`, `C74_sr_momentum_refuted`, `C74_sr_adam_refuted`, `C74_unsupported_type_refuted` |
| C75 | A job starts from plausible walkers and keeps them complete, well-shaped and in step with the parameters | M_start: initialize_molecular_pos, _make_initial_data, _setup_vmc and _make_new_data_for_eval as far as walkers and keys go, burn-in, the training run from the seed | coordinates of the flat walkers; an invariant (equal metadata on all devices, shapes, consistency) through every step, walk, burn-in and the whole loop | `C75_initial_positions`, `C75_draws`, `C75_initial_walkers`, `C75_new_eval_walkers`, `C75_training_from_start` |
| C76 | Moving the molecule and its electrons together does not change the wavefunction | M_dispatch with M_construct, M_models: every model reads positions through displacements between electrons and from electrons to ions | displacements of moved positions are equal (also with NaN and infinities), hence the input streams; then model by model. Counterexample: two electrons and one hidden particle in one dimension | `C76_translation`, `C76_log_psi`, `C76_embedded_refuted` |
| C77 | Where the molecule sits does not matter to a job | M_job: build_job puts M_dispatch, M_start, M_mcmc, M_setup, M_energy, M_optim, M_optax and M_run together, from the configuration and the seed to the files | a simulation: if burn-in, walk, update, new walkers and evaluation of two jobs commute with a map of the walkers, so do their whole runs (P_loopmap); the configured pieces commute with translations by C76 and the invariance of the local energy | `C77_translation`, `C77_fresh_job` |
| C78 | From the configuration to the files: what a job writes | M_job as for C77; the specification (S_job) gives the local energy as (H f)/f for any f with |f| the modulus of the configured wavefunction | invariants of C75 and Metropolis steps (P_sample) through the loop; the description of a run by epochs (P_vmc2); C03_amplitude_lines for the amplitude files; C68 and C26 for the values; C65 for the resumed job; C01, C04 (run_description) for the checkpoint files (S_jobfiles) | `C78_accepted`, `C78_training_never_fails`, `C78_resumed_job`, `C78_training`, `C78_evaluation`, `C78_checkpoints`, `C78_ferminet_evaluates` |
| C79 | Every random number of a job is drawn with a key of its own | M_job with keys as symbolic paths (M_keys); S_jobkeys lists the draws of a job and says what is computed from them | an explicit schedule of keys (P_jobkeys): each device walks down the left branch of its tree; offsets are computed by induction over steps and epochs, and two draws at different offsets have unrelated keys | `C79_random_numbers` |
| C80 | Checkpoints survive the deletion of the arrays they were taken from | M_buffers: the loop of M_vmc on references to buffers that can be deleted, with a writer thread that reads them at an arbitrary later moment | a simulation of M_vmc: queued and best checkpoints only refer to buffers that no later call can delete (P_buffers), for every contract-respecting walker function and update | `C80_checkpoints_survive`, `C80_every_run_can_donate`, `C80_donated_walkers_refuted` |
| C81 | Whether a job starts depends on its configuration alone | S_total (evaluable; the shipped configuration, field by field), on M_dispatch and M_job | an equivalence for each of the six models between having a value and a condition on its fields (P_total), then on its configuration (T_total); C78_accepted without its hypothesis | `C81_defined`, `C81_model_evaluates`, `C81_starts`, `C81_shipped` |
| C82 | A wavefunction with finite parameters is a number, or NaN only where stated | S_finite (finite parameters and configuration, the models that sum logarithms, the k-th determinant), on M_dispatch | finiteness is preserved by every layer of the six models (P_finite, P_finite2) and holds for what the configuration builds (P_finite3); zero at a coincidence follows from antisymmetry under the exchange (C72) and being a number; NaN of an empty species is followed through the layers (P_nan); examples: LiH as shipped with all six models at a coincidence, hydrogen | `C82_number`, `C82_ferminet`, `C82_coincidence`, `C82_empty_species_refuted` |
| C83 | A batch of walkers is evaluated walker by walker | M_tensor (arrays with any number of axes: broadcasting, axis arguments, reshape, split, concatenate, moveaxis, reductions, slogdet), M_batch (the FermiNet call written with them, call by call); S_batch (one walker of an array) | a relation between an array at one batch position and the lists of the one-walker model (P_batch), shown to be kept by every call of the model, errors included (P_batch2-P_batch7); examples: a batch of two walkers with their values, LiH as shipped | `C83_batched_call`, `C83_walker_by_walker`, `C83_other_walkers`, `C83_antisymmetric`, `C83_exchange`, `C83_job` |
| C84 | Logged energies are local energies of a wavefunction that has derivatives | S_smooth (the wavefunction as a real function of the positions, smooth models, regular walkers, smooth jobs), on M_dispatch and M_job | a logical relation: along one displaced coordinate every layer maps families of arrays with twice differentiable entries to such families (P_smooth to P_smooth3: streams, attention, backflow, envelopes; P_smooth4 to P_smooth6: orbitals, determinants, log-sums, cofactors, readouts; P_smooth7: Jastrow factors, antisymmetrisation; P_smooth8: what the configuration builds, coincidences); with C82 (values are numbers) the hypothesis of C78 follows; examples: LiH as shipped, the job on a line, models that meet the extra conditions | `C84_smooth`, `C84_modulus`, `C84_ordinary_walkers`, `C84_training`, `C84_evaluation`, `C84_shipped` |
| C85 | The statistics file of an evaluation is the error analysis of the local energies of its walkers | M_statsfile (the statistics of a table of energies, the vmc-statistics command) on M_job, M_files, M_stats | the rows of the evaluation are those of C84; that the table loaded from the file is the table recorded; then C25's statistics of it; example: the job on a line | `C85_statistics` |
| C86 | Log-domain sums are safe in floating-point arithmetic | M_float (log_linear_exp, slog helpers, the determinant sum of the FermiNet on Flocq's binary floating-point numbers), S_float (signs, logs, amounts, what is assumed of exp, log and the format) | P_float: any tree of additions of at most 2^prec numbers of size at most 1 is finite, with error at most u n^2, and does not cancel if signs agree, by induction on trees; P_float2: error of one scaled term, also when the difference of logs overflows, the maximum, sign and log; P_float3: the sum, products over spins; P_float4: correctly rounded exp and log, left-to-right sums; example in single precision: a sum that overflows when taken plainly | `C86_sum`, `C86_arrays`, `C86_determinants`, `C86_assumptions_hold` |
| C87 | KFAC curvature blocks hold second moments over every application of a layer | M_kfac (RepeatedDenseBlock, QmcBlockedDense, the moving averages and the dense update they inherit), S_kfac (places, second moments, Kronecker product, inner product) | P_kfac: rows of the reshaped array are exactly the places, induction over updates for the explicit weights; P_kfac2: the factors are non-negative sums of rank-one matrices, hence so is the quadratic form of their Kronecker product; inverses by associativity of sums; examples with two updates and with a cache | `C87_factors`, `C87_positive`, `C87_order`, `C87_scale`, `C87_batch_size`, `C87_blocked_factors`, `C87_blocked_matrix`, `C87_blocked_positive`, `C87_blocked_inverse`, `C87_blocked_unsupported` |
| C88 | Metropolis sampling is safe in floating-point arithmetic | M_fwalk (acceptance, proposal, decision, masked update, step width and its averages on floating-point numbers), S_fwalk (exact ratio, uniform draws, widths, masks) | P_fwalk: doubling is exact, exp of a rounded difference (P_float2), special values by cases; widths: rounding x > eta/2 does not give 0; means of masks: integer sums are exact, quotients stay in [0, 1]; induction over steps; P_fwalk2: accuracy of the plain ratio, indexing of nested batches; single-precision witnesses by computation | `C88_acceptance`, `C88_special`, `C88_walk`, `C88_stuck`, `C88_width_positive`, `C88_width_zero_refuted`, `C88_adaptation`, `C88_plain`, `C88_plain_underflow_refuted`, `C88_step`, `C88_plain_accuracy` |
| C89 | Energy statistics and clipping are safe in floating-point arithmetic | M_fenergy (means, NaN-safe means, statistics, total-variation clipping and the energies of an update on floating-point numbers), S_fenergy (exact means and variances, ranges, what clipping does) | P_fenergy: any summation tree of numbers at most B in size keeps partial sums below n B, with error u n per unit; P_fenergy2: squared deviations and the factor N/(N-1), spread about a rounded mean; P_fenergy3: signs and special values by cases, clip by cases on infinite and finite bounds; P_fenergy4: total variation, NaN, equal shares | `C89_statistics`, `C89_sample`, `C89_nan_safe_same`, `C89_variance_not_negative`, `C89_not_finite`, `C89_clipping`, `C89_total_variation`, `C89_update`, `C89_mean_center_nan` |
| C90 | The best checkpoint is best up to rounding, and when it is not | M_fcheckpoint (running averages, checkpoint metric and best-checkpoint tracking on floating-point numbers), S_fcheckpoint (exact windows and metric) | P_fcheckpoint: one update adds at most 16 u 2^k to the error (product, sum, difference and quotient rounded once each, partial results bounded by the window length); P_fcheckpoint2: induction over histories, argmin invariant of the tracker, NaN absorbs; P_fcheckpoint3: quotient and square root; single-precision witnesses by computation | `C90_running_average`, `C90_drift_refuted`, `C90_smallest_metric`, `C90_best`, `C90_nan_for_ever`, `C90_best_lost_refuted` |
| C91 | Coulomb energies are accurate in floating-point arithmetic, and when they are not numbers | M_fpotential (displacements, softened norms, the three potentials with their masks, the sum of the energy terms), S_fpotential (exact Coulomb sums over pairs) | P_fpotential: calculus of relative errors (a factor (1-u)^p either way; products, inverses, roots, sums), sums of numbers that are not negative by induction on the tree of additions, underflow of squares absorbed by the distance; P_fpotential2: the masked matrix is the list of pairs up to order and zeros; infinities absorb | `C91_attraction`, `C91_repulsion`, `C91_ions`, `C91_local_energy`, `C91_coincidence`, `C91_close_refuted` |
| C92 | Norm constraints and parameter updates in floating-point arithmetic | M_fupdate (inner products of pytrees, the coefficient, both norm constraints on all devices, SPRING's step after its direction), S_fupdate (squared lengths, exact shrinking, workable updates) | P_fupdate: signs of sums, quotients and roots, so that the coefficient is a number in [0, 1]; P_fupdate2, P_fupdate3: relative error of inner products and means, of the coefficient and of the entries, the bound on the new length; P_fupdate4: infinities, NaN, lost updates (midpoints of the format); P_fupdate5: the step entry by entry. | `C92_safe`, `C92_constrained`, `C92_unchanged`, `C92_overflow`, `C92_nan`, `C92_step`, `C92_sr_safe`, `C92_moves_refuted`, `C92_sr_nan_refuted` |
| C93 | Learning-rate schedules, momentum and Adam in floating-point arithmetic | M_foptax (schedules, optax's SGD, momentum and Adam for one entry over a whole run), S_foptax (exact rate, weighted sums, exact quotient, ranges) | P_foptax: the rate is monotone through overflow and underflow, its relative error; P_foptax2: invariants of trace and moments with powers of two as bounds, and the frozen state; P_foptax3: error of the moments by a contraction, relative error of the quotient, one step. | `C93_rate`, `C93_rate_accuracy`, `C93_step`, `C93_sgd`, `C93_momentum`, `C93_adam`, `C93_adam_accuracy`, `C93_adam_frozen`, `C93_eps_refuted` |
| C94 | Linear layers in the log domain in floating-point arithmetic | M_fdense (log_linear_exp with weights, LogDomainDense on floating-point numbers), S_fdense (exact linear combination, weights in range, error bound) | P_fdense: one weighted term, a column's sum in any order, scaling back by the maximum; the all-zero case and a concrete underflow. | `C94_dense`, `C94_bias`, `C94_no_bias_nan`, `C94_error`, `C94_lost_refuted` |
| C95 | Sign-symmetrised functions are odd and even in floating-point arithmetic | M_fsign (sign orbits, sign-covariant and sign-invariant sums on floating-point numbers), S_fsign (negated inputs, equality up to the sign of a zero, exact alternating sums, adding by halves) | P_fsign: addition commutes with negation up to the sign of a zero, bits of the symmetry's number, the tree of halves is invariant under flipping a bit; P_fsign2: any order with two terms, alternating sums by recursion over the inputs, error of a sum in any order. | `C95_exact`, `C95_one_input`, `C95_accuracy`, `C95_order_refuted` |
| C96 | Orbitals with exponential envelopes in floating-point arithmetic: never NaN, accurate, and zero far from the ions | M_forbital (isotropic scaling, norm, softened distance, envelopes, orbitals on floating-point numbers), S_forbital (exact lengths, envelopes and orbitals, ranges, error bounds) | P_forbital: distances are numbers that are not negative or +inf, relative error of the distance from C91's norm, error of the exponential from x e^(-x/2) <= 1, sums in any order; P_forbital2: scaling, whole orbitals. | `C96_never_nan`, `C96_accuracy`, `C96_orbitals`, `C96_far`, `C96_nonzero_refuted` |
| C97 | Decaying Jastrow factors in floating-point arithmetic | M_fjastrow (one-body and backflow Jastrow factors on floating-point numbers), S_fjastrow (exact sums and means of lengths, what a decaying log and a factor are) | P_fjastrow: norms are numbers that are not negative or +inf and sums and means keep that; relative errors of norms (C91), scaling (C96), sums in any order and division multiply up; error of the exponential from C96. | `C97_one_body_decays`, `C97_one_body_accuracy`, `C97_backflow_decays`, `C97_backflow_accuracy`, `C97_no_electrons_nan` |

## Findings about the code

Every entry names the theorem that proves it, if there is one; entries without a theorem are observations from reading the code.

| what | proved by |
|------|-----------|
| Reloading at stored epoch 0 with append keeps all lines of the old metric files (`truncate=0` is falsy), so lines are duplicated | `C03_epoch_zero_refuted` |
| `old_data = data.copy()` copies the dictionary of the walkers and not their arrays: an update that donates the walkers would destroy the checkpoints (nothing in the repository does) | `C80_donated_walkers_refuted` |
| One NaN energy (with NaN checks off) makes the running average NaN for ever: no best checkpoint is written any more | `C05_nan_disables_best` |
| `check_for_nans` has no effect without a log directory | `C07_nan_check_ignored_refuted` |
| The running window holds `nhistory_max - 1` values; `nhistory_max = 1` gives NaN averages and no best checkpoint | `C08_window_too_short_refuted`, `C08_nhistory_one_nan`, `C08_nhistory_one_no_best` |
| An exception in the writer thread is swallowed and everything queued after it is lost | `C10_exit_means_written_refuted` |
| `best_checkpoint.npz` is overwritten in place: a crash in between destroys the only copy | `C11_best_intact_refuted` |
| `add_suffix_for_uniqueness` with a trailing separator puts the suffix inside the directory | `C12_trailing_separator_refuted` |
| A dict inside a list keeps its lists (not tuples) when a config is reloaded | `C13_dict_in_seq_refuted` |
| Parameters that are a tuple come back as a list | `C14_tuple_params_refuted` |
| A walker whose amplitude and proposal are both zero in log mode is stuck with NaN acceptance | `C23_nodes` |
| A constant chain, or one chain, gives NaN error bars; autocorrelation time -1 gives NaN | `C25_error_bar_is_number_refuted`, `C26_one_chain` |
| The NaN-safe mean over devices is not the mean of all numbers when devices lose different numbers of entries | `C28_nanmean_sharding_refuted` |
| With mean-centred clipping one NaN local energy makes all clipped energies NaN; the clip window depends on the sharding | `C29_mean_centre_spreads_nan`, `C29_sharding_independence_refuted` |
| `nan_safe` does not make the gradient NaN-safe (0 * NaN in the backward pass); `nchains = 1` raises | `C31_nan_safe_gradient_refuted`, `C31_errors` |
| Random-particle kinetic energy is only right in three dimensions, and wrong for `nparticles > n` | `C36_two_dimensions_refuted`, `C36_too_many_particles_refuted` |
| The cotangent of the softening is NaN at zero displacement and zero softening | `C37_softening_at_zero_refuted` |
| With softening the Laplacian of the ibp auxiliary potential is not the softened Coulomb potential | `C38_softening_refuted` |
| One spin species (`spin_split = ()`) raises IndexError | `C42_single_species_refuted` |
| FermiNet without determinant function, FactorizedAntisymmetry and the hidden-particle variants return (NaN, NaN) instead of (0, -inf) where same-spin electrons coincide | `C44_vanishes_without_determinant_fn_refuted`, `C62_*_coincidence`, `C64_coincidence` |
| `PAIRWISE_EVEN` with `full_det` or with other than two spins raises | `C44_pairwise_raises` |
| Chargeless scaling of the two-body Jastrow only works for electron strength 1 | `C50_chargeless_other_strength_refuted` |
| Summing sign-log values that are all zero gives NaN; so does a skip connection in a log-domain ResNet | `C51_all_zero_refuted`, `C52_zero_skip_refuted` |
| The cofactor layers pass their options positionally in the wrong slots: `orbitals_use_bias` becomes the envelope softening | `C53_cofactor_layers_refuted` |
| Without electron-ion norms the one-electron input is not flattened | `C54_without_norm_refuted` |
| SPRING replicas on several devices drift apart (each device solves for its own walkers; only device 0 is saved), and single devices can exceed the norm constraint | `C57_replicas_refuted`, `C57_each_device_refuted` |
| SR's norm constraint is NaN when gradient and direction have a negative inner product | `C59_negative_inner_product_refuted` |
| SPRING on several devices: parameters differ between devices, a checkpoint keeps the first device's copy, so resuming changes the result | `C65_spring_refuted` |
| Reloading with `new_optimizer_state` restarts at epoch 0 and runs all `nepochs` again; with append the metric files then have more lines than epochs | `C65_new_optimizer_state` |
| After a resume in the same directory best_checkpoint.npz can be overwritten by a worse state | `C66_overall_best_refuted` |
| Re-running in the same directory appends to eval/local_energies.txt, and the statistics mix the runs | `C67_reused_directory_refuted` |
| One evaluation epoch or one walker: the job ends with an exception and no statistics file (`np.loadtxt` squeezes) | `C67_single_sample_raises` |
| `ProductsSignCovariance(use_weights=True)` is not antisymmetric | `C63_weighted_products_refuted` |
| Random-particle evaluation returns the batch of keys instead of a key | `C21_eval_random_particle_refuted` |
| Unknown names in `ibp_parts`/`sample_parts` are silently ignored (an unknown `local_energy_type` raises) | `C68_unknown_parts_refuted` |
| Integrating the kinetic energy by parts gives an exact eigenstate a non-zero reported variance | `C69_ibp_refuted` |
| A job with `same_logdir` stores its configuration as `config_i.json`, but reloading from its log directory reads `config.json`, the configuration of the first job | `C71_same_logdir_reload_refuted` |
| Checking for and creating the log directory are separate steps: two jobs with the same naming started in the same second share a directory and one configuration can be lost | `C71_concurrent_directories_refuted` |
| `ei_norm_softening` and `ee_norm_softening` in `model.*.input_streams` have no effect (`get_compute_input_streams_from_config` drops them) | `C72_norm_softening_ignored_refuted` |
| `determinant_fn_mode` has no effect; `det_resnet.mode` is used, and must be valid even if the network is off | `C72_determinant_fn_mode_ignored_refuted`, `C72_accepted` |
| `orbital_cofactor_net` receives its options positionally under other names than `per_particle_dets_net` | `C72_cofactor_options_refuted` |
| Stochastic reconfiguration constrains the preconditioned gradient, not the update: with `sgd.momentum` or `descent_type = adam` the parameter change can exceed `norm_constraint` | `C74_sr_momentum_refuted`, `C74_sr_adam_refuted` |
| An unsupported `optimizer_type` raises KeyError (the section lookup comes first), not the documented ValueError | `C74_unsupported_type_refuted` |
| The embedded-particle model is not translation invariant: its hidden particles are placed at coordinates computed from invariant features, so they do not move with the molecule, and the sign of the wavefunction can change under a common translation of ions and electrons | `C76_embedded_refuted` |
| With a spin species without electrons (hydrogen: `nelec=(1, 0)`) the means over that species are 0/0, so a FermiNet job starts but log|psi| is NaN for all parameters at all positions | `C82_empty_species_refuted` |
| In floating point, plain amplitudes whose square underflows accept every move; a step width shrunk by a factor 1/2 or less underflows to zero and stays there (the configured factor is 0.9); a walker at log amplitude +inf never leaves | `C88_plain_underflow_refuted`, `C88_width_zero_refuted`, `C88_stuck` |
| With the default settings (NaN-safe means, clipping about the mean) one NaN energy makes all clipped energies and the mean energy NaN: the clipping center is the plain mean, so NaN-safe means do not help | `C89_mean_center_nan` |
| The running averages used for the best checkpoint are updated in place and never forget rounding errors: after one large variance the average of positive variances can stay negative for ever; its square root is NaN and best checkpoints stop for the rest of the run | `C90_drift_refuted`, `C90_best_lost_refuted` |
| Squared distances underflow: in single precision an electron 2^-76 away from a proton gets potential energy -infinity although position and energy are ordinary numbers; coincident particles give infinities or NaN without softening | `C91_close_refuted`, `C91_coincidence` |
| The squared length of an update overflows long before its entries do (2^64 in single precision): SPRING's constraint then multiplies every update on every device by 0, and training silently stands still; an infinite entry becomes NaN, the others 0 | `C92_overflow` |
| The norm constraint of stochastic reconfiguration divides by a rounded inner product that may be negative although the exact one is positive; its square root is NaN, and all parameters become NaN in one step | `C92_sr_nan_refuted` |
| Updates below half a unit in the last place are lost: parameter 1, gradient 2^-25, learning rate 1 never moves in single precision | `C92_step`, `C92_moves_refuted` |
| Adam's second moment becomes +infinity after one gradient entry whose square overflows (2^64 in single precision) and stays so: that parameter is never trained again, without any error message | `C93_adam_frozen` |
| Adam accepts eps = 0; with eps_root = 0 (the default) a parameter whose gradient vanishes in the first epoch becomes NaN | `C93_eps_refuted` |
| A log-domain dense layer without bias returns NaN (not sign 0, log -inf) for inputs that are all zero | `C94_no_bias_nan` |
| log_linear_exp with weights scales by the largest input even if its weight is 0; other inputs then underflow, and a nonzero output is returned as log -inf | `C94_lost_refuted` |
| A sign-covariant function of two inputs (two spins) is exactly odd only if its four terms are added by halves; from left to right, rounding alone gives a nonzero wavefunction where it vanishes exactly | `C95_order_refuted` |
| All orbitals of an electron far from all ions (scaled distance 456 in single precision) are exactly zero, so the determinant is zero and its log -inf | `C96_far`, `C96_nonzero_refuted` |
| Isotropic decay rates are documented as one number per ion and orbital (per ion in the one-body Jastrow), but the kernel of `_isotropy_on_leaf` has one number per orbital, shared by all ions; two ions with different rates cannot be represented | `C50_per_ion_rates_refuted`, `C73_per_ion_rates_refuted` |
| The backflow Jastrow of a system without electrons is NaN (mean of nothing) | `C97_no_electrons_nan` |

Observations without a theorem: the metrics writer and the checkpoint
writer are separate threads, so metric files may lag behind checkpoints at a crash;
`FieldReference` ties `cyclic_spins` of all model types together.

## Which code is modelled

| file in /repo/vmcnet | modelled in | not modelled |
|----------------------|-------------|--------------|
| train/vmc.py | M_vmc (loop), M_buffers (loop on device buffers), M_keys (keys) | logging text |
| train/runners.py | M_job (a whole job from its configuration), M_setup (energy from the configuration), M_start (walkers, burn-in), M_run, M_logdir, M_vmc, M_keys, M_stats, M_files, M_statsfile (evaluation, reload, append, statistics file) | absl logging, dtype choice, jax platform set-up |
| train/parse_config_flags.py, default_config.py | M_config | absl/`config_flags` internals; the numeric default values that no theorem mentions |
| utils/checkpoint.py | M_vmc, M_writer, M_files, M_io, M_fcheckpoint (floating point) | byte format of npz/txt, OS buffering beyond truncate/write/close |
| utils/io.py | M_io, M_files, M_logdir | numpy pickling |
| utils/distribute.py, pytree_helpers.py | M_distribute, M_optim, M_fenergy, M_fupdate | XLA execution of pmap (modelled as lock step) |
| utils/slog_helpers.py, log_linear_exp.py | M_slog (exact), M_float, M_fdense (floating point; without and with weights) | flush to zero |
| utils/curvature_tags_and_blocks.py | M_kfac | registration of tags and graph patterns (read by kfac_jax's tracer); kfac_jax's inverse is a parameter; the scale of the blocked layer (86-87) |
| utils/typing.py | - | type aliases |
| mcmc/metropolis.py, position_amplitude_core.py, dynamic_width_..., simple_... | M_mcmc, M_keys, M_fwalk (floating point) | pmap compilation |
| mcmc/statistics.py | M_stats | FFT algorithm (modelled by its defining sum) |
| physics/core.py, kinetic.py, potential.py, ibp.py, random_particle.py, spin.py | M_physics, M_energy, M_start, M_fenergy (statistics and clipping in floating point), M_fpotential (Coulomb potentials and local energy in floating point) | automatic differentiation itself (analytic derivative) |
| examples/*.py | M_physics | random initialisation |
| updates/params.py, sr.py, spring.py, parse_config.py | M_optim, M_optax; norm constraints, SPRING's step, schedules, SGD and Adam also in floating point: M_fupdate, M_foptax | internals of kfac_jax (an arbitrary function); jax cg, optax.sgd and optax.adam modelled from their definitions |
| models/core.py, equivariance.py, invariance.py, jastrow.py | M_models, M_fdense (LogDomainDense in floating point), M_forbital (isotropic envelopes and orbitals in floating point), M_fjastrow (one-body and backflow Jastrows in floating point) | flax parameter creation, initialisers' distributions |
| models/antisymmetry.py, antiequivariance.py, sign_symmetry.py | M_antisym; M_fsign (sign symmetrisation in floating point) | - |
| models/construct.py | M_construct, M_dispatch | wording of error messages |
| models/weights.py | M_dispatch (which names are known) | initialiser distributions |

Simplifications are stated in the comment of the definition they concern.  The main ones: exact arithmetic outside the floating-point files; `scipy.linalg.solve(assume_a="pos")` is
Gaussian elimination; reverse-mode derivatives are analytic derivatives except where the custom rule is itself the subject (C31, C37);
batches of walkers one at a time, except for the FermiNet call, which M_tensor and M_batch model on arrays with batch axes; C83 proves that this is the one-walker call at every walker.

## Trusted base

1. Coq 8.16.1's kernel (`coqc`), and `coqchk` as an independent check of the compiled files.  No flags are changed, no kernel check is switched off,
   no OCaml plugin is used, nothing is extracted.
2. The axioms of the standard library listed by `Print Assumptions` under each theorem (next section).  They are
   `ClassicalDedekindReals.sig_not_dec` and `sig_forall_dec` (real numbers), `FunctionalExtensionality.functional_extensionality_dep`,
   `Classical_Prop.classic` (through Coquelicot) and `Epsilon.epsilon_statement` (files that use mathcomp's classical finite types for determinants:
   Det.v, P_parity.v).  No other axiom is used and none is added here.
3. `coqchk -o` also lists constants of mathcomp's sealed modules (for example `mathcomp.ssreflect.fintype.*` behind `Module Type ... Definition`).
   These are definitions sealed by a signature inside mathcomp, not axioms; `Print Assumptions` does not list them.
4. The correspondence between the Python text and the `M_*.v` files: by reading; every definition cites its lines.  The seeded-bug runs
   (`seeded/LOG.jsonl`) test that the theorems constrain the model.
5. The reading of the properties given by the `S_*.v` files and the theorem statements.

### What `Print Assumptions` lists, theorem by theorem

* **Closed under the global context (no axiom)** (49 theorems): C09_all_written_on_exit, C09_close_terminates, C09_no_deadlock, C09_written_is_prefix, C10_exit_means_written_refuted, C10_failed_write_loses_rest, C11_one_truncated_file, C11_overwrite_not_atomic, C12_no_separator, C12_trailing_separator_refuted, C12_unique_names, C13_dict_in_seq_refuted, C13_load_tuplifies, C13_reload_of_reload, C13_roundtrip, C13_unchanged_iff, C14_distributed_roundtrip, C14_roundtrip, C14_tuple_params_refuted, C14_unwrapped_files, C15_conflicts, C15_one_source, C15_reload_chain, C16_copy_is_unshared, C16_copy_succeeds, C16_override_is_local, C21_eval_random_particle_refuted, C21_keys_never_reused, C21_update_reads_only_counted_keys, C27_distribute, C27_distribute_tree, C27_replicate_and_restore, C35_orders_complete, C42_every_specification, C42_single_species_refuted, C42_sizes_add_up, C42_sizes_agree, C42_spin_split_describes, C42_split_partitions, C42_uneven_split_raises, C53_per_particle_layers, C71_concurrent, C71_concurrent_directories_refuted, C71_every_configuration_kept, C71_never_overwritten, C71_own_directories, C71_same_logdir_reload_refuted, C80_every_run_can_donate, C87_scale

* **`sig_forall_dec`** (5 theorems): C32_single_and_empty, C40_hermite_count, C53_cofactor_layers_refuted, C53_cofactor_layers_when, C84_shipped

* **`functional_extensionality_dep`, `sig_forall_dec`** (63 theorems): C08_nhistory_one_nan, C08_running_average, C08_window_too_short_refuted, C18_stationary_density_plain, C18_stationary_plain, C20_walk, C20_walk_distributed, C22_dynamic_width, C25_min_upto_is_minimum, C25_tail_irrelevant, C25_tau_bounds, C25_tau_is_initial_minimum_sequence, C28_mean_of_means, C28_nanmean_even, C28_nanmean_sharding_refuted, C29_clipping_window, C29_configuration, C29_idempotent, C29_mean_centre_spreads_nan, C29_median_centre_contains_nan, C29_sharding_independence_refuted, C30_noclip_metrics, C30_statistics, C31_errors, C31_gradient_is_covariance, C31_nan_safe_gradient_refuted, C31_shift_and_eigenstate, C32_any_order, C32_sum_of_terms, C37_softening_at_zero_refuted, C44_resnet_determinant_fn_finite, C45_parity_of_exchanges, C45_permuted_arrays, C45_signs_are_parities, C46_exchange, C46_factorized_fixes_antisymmetric, C46_generic_fixes_antisymmetric, C47_covariant, C47_covariant_arrays, C47_every_pattern_once, C47_invariant, C47_products, C55_average, C58_operators_agree, C58_positive_definite, C60_constant, C60_rejected, C74_accepted, C74_unsupported_type_refuted, C75_draws, C75_initial_positions, C75_initial_walkers, C75_new_eval_walkers, C87_batch_size, C87_blocked_factors, C87_blocked_inverse, C87_blocked_matrix, C87_blocked_positive, C87_blocked_unsupported, C87_factors, C87_order, C87_positive, C89_sample

* **`classic`, `functional_extensionality_dep`, `sig_forall_dec`** (2 theorems): C58_direction, C58_truncated

* **`epsilon_statement`, `functional_extensionality_dep`, `sig_forall_dec`** (1 theorems): C48_entries

* **`functional_extensionality_dep`, `sig_forall_dec`, `sig_not_dec`** (118 theorems): C01_regular_checkpoints, C02_resume_reproduces, C03_amplitude_lines, C03_epoch_zero_refuted, C03_one_line_per_epoch, C03_resume_append_same_file, C04_best_checkpoint, C05_nan_disables_best, C05_unconditional_best_refuted, C06_nan_abort, C07_logging_is_passive, C07_nan_check_ignored_refuted, C07_no_logdir, C08_nhistory_one_no_best, C11_best_intact_refuted, C11_crash_recovery, C11_regular_intact, C18_gaussian_balance, C18_gaussian_density, C18_stationary_interval, C19_always_consistent, C19_step_atomic, C21_step_reads_only_counted_keys, C21_training_as_counted, C24_fft_is_direct, C25_error_bar_is_number_refuted, C25_summary, C26_multi_chain, C26_one_chain, C26_shift_and_scale, C31_gradient_is_derivative, C34_electron_order, C34_finite, C34_ion_order, C34_isometry, C34_signs, C34_translation_reflection, C35_all_particles, C35_boundaries, C35_each_pair_once, C35_sampled_weights, C35_unbiased, C36_kinetic_unbiased, C36_local_energy_unbiased, C36_whole_particles, C37_norm_bounds, C41_absent_species, C43_backflow_equivariant, C43_input_streams_equivariant, C43_layer_equivariant, C49_invariant_tensor_invariant, C50_backflow_jastrow_invariant, C50_chargeless_other_strength_refuted, C50_chargeless_value, C50_chargeless_zero, C50_equal_rates, C50_one_body_formula, C50_one_body_invariant, C50_per_ion_rates_refuted, C50_two_body_formula, C50_two_body_invariant, C54_ion_features, C54_pair_features, C54_shapes, C54_softening, C54_without_ions, C54_without_norm_refuted, C55_cyclic_relabelling, C55_own_average_first, C56_momentum_and_shift, C56_normal_equations, C56_remembered_direction, C56_unique_minimiser, C57_each_device_refuted, C57_norm_constraint, C57_replicas_refuted, C57_single, C59_fisher_norm, C59_negative_inner_product_refuted, C59_norm_constraint, C61_evaluation, C61_training, C65_new_optimizer_state, C65_resumed_job, C65_spring_refuted, C66_best_since_resume, C66_overall_best_refuted, C67_evaluation, C67_fresh_directory, C67_no_evaluation_after_nans, C67_reused_directory_refuted, C67_single_sample_raises, C68_errors, C68_unknown_parts_refuted, C70_like_electrons, C70_translation, C72_accepted, C72_backflow_options, C72_cofactor_options_refuted, C72_determinant_fn_mode_ignored_refuted, C72_ferminet_options, C72_norm_softening_ignored_refuted, C72_only_chosen_section, C72_per_particle_options, C73_isotropic, C73_orbital_value, C74_adam, C74_adam_bounded, C74_resume, C74_sgd, C74_spring, C74_sr, C74_sr_adam_refuted, C74_sr_momentum_refuted, C74_sr_trust_region, C75_training_from_start, C80_checkpoints_survive, C80_donated_walkers_refuted

* **`classic`, `functional_extensionality_dep`, `sig_forall_dec`, `sig_not_dec`** (118 theorems): C17_acceptance, C18_stationary_density_log, C18_stationary_log, C18_total_probability, C23_nodes, C31_generic_unbiased, C31_unbiased, C33_kinetic_energy, C36_too_many_particles_refuted, C36_two_dimensions_refuted, C37_backward_rule, C38_divergence, C38_gradient, C38_laplacian_formula, C38_laplacian_is_coulomb, C38_softening_refuted, C39_constant_iff, C39_local_energy, C40_hermite, C40_hermite_equation, C40_orbital_eigenfunction, C41_estimator, C41_exchange, C41_singlet_triplet, C47_covariant_slog, C48_features, C51_all_zero_refuted, C51_product, C51_roundtrip, C51_sum, C51_weighted_sums, C52_dense_with_bias, C52_dense_without_bias, C52_resnet, C52_zero_skip_refuted, C60_inverse_time, C68_ibp, C68_random_particle, C68_standard, C69_ibp_refuted, C69_random_particle, C69_zero_variance, C73_anisotropic_refuted, C73_envelope_bounded, C73_envelope_decays, C73_per_ion_rates_refuted, C86_arrays, C86_assumptions_hold, C86_determinants, C86_sum, C88_acceptance, C88_adaptation, C88_plain, C88_plain_accuracy, C88_plain_underflow_refuted, C88_special, C88_step, C88_stuck, C88_walk, C88_width_positive, C88_width_zero_refuted, C89_clipping, C89_mean_center_nan, C89_nan_safe_same, C89_not_finite, C89_statistics, C89_total_variation, C89_update, C89_variance_not_negative, C90_best, C90_best_lost_refuted, C90_drift_refuted, C90_nan_for_ever, C90_running_average, C90_smallest_metric, C91_attraction, C91_close_refuted, C91_coincidence, C91_ions, C91_local_energy, C91_repulsion, C92_constrained, C92_moves_refuted, C92_nan, C92_overflow, C92_safe, C92_sr_nan_refuted, C92_sr_safe, C92_step, C92_unchanged, C93_adam, C93_adam_accuracy, C93_adam_frozen, C93_eps_refuted, C93_momentum, C93_rate, C93_rate_accuracy, C93_sgd, C93_step, C94_bias, C94_dense, C94_error, C94_lost_refuted, C94_no_bias_nan, C95_accuracy, C95_exact, C95_one_input, C95_order_refuted, C96_accuracy, C96_far, C96_never_nan, C96_nonzero_refuted, C96_orbitals, C97_backflow_accuracy, C97_backflow_decays, C97_no_electrons_nan, C97_one_body_accuracy, C97_one_body_decays

* **`classic`, `epsilon_statement`, `functional_extensionality_dep`, `sig_forall_dec`, `sig_not_dec`** (60 theorems): C40_local_energy, C44_antisymmetric, C44_defined, C44_exchange, C44_pairwise_raises, C44_vanishes_with_determinant_fn, C44_vanishes_without_determinant_fn_refuted, C46_factorized_antisymmetric, C46_generic_antisymmetric, C46_vanishes_at_coincidence, C48_antiequivariant, C48_expansion, C48_layers, C48_layers_without_ions, C51_determinant_products, C62_embedded_antisymmetric, C62_embedded_coincidence, C62_extended_antisymmetric, C62_extended_coincidence, C63_antisymmetric, C63_coincidence, C63_weighted_products_refuted, C64_antisymmetric, C64_coincidence, C72_antisymmetric, C72_ferminet_defined, C72_log_psi_invariant, C76_embedded_refuted, C76_log_psi, C76_translation, C77_fresh_job, C77_translation, C78_accepted, C78_checkpoints, C78_evaluation, C78_ferminet_evaluates, C78_resumed_job, C78_training, C78_training_never_fails, C79_random_numbers, C81_defined, C81_model_evaluates, C81_shipped, C81_starts, C82_coincidence, C82_empty_species_refuted, C82_ferminet, C82_number, C83_antisymmetric, C83_batched_call, C83_exchange, C83_job, C83_other_walkers, C83_walker_by_walker, C84_evaluation, C84_modulus, C84_ordinary_walkers, C84_smooth, C84_training, C85_statistics

