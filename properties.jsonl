{"id": "C01", "title": "Regular checkpoints: exactly at multiples, with the pre-epoch state", "statement": "When vmc_loop runs with a log directory and checkpoint_every=k, the file <checkpoint_dir>/N.npz is written exactly for those N=epoch+1 of completed epochs with k | N, once each, and it contains the epoch number N-1 together with the data, parameters, optimizer state and key that were current at the START of epoch N-1 (not after it).", "quantifier": "every walker_fn, update_param_fn, start epoch, number of epochs, k, metric stream and NaN flag", "why_tests_cant": "Tests run a handful of epochs with one k; the claim is about every history of the loop, including early termination.", "anchors": ["vmcnet/train/vmc.py:vmc_loop", "vmcnet/utils/checkpoint.py:save_metrics_and_regular_checkpoint", "vmcnet/utils/checkpoint.py:save_metrics_and_handle_checkpoints"]}
{"id": "C02", "title": "Resuming from a regular checkpoint reproduces the uninterrupted run", "statement": "If a run of vmc_loop is restarted from any regular checkpoint N.npz, with start_epoch set to the stored epoch, then the final parameters, data, optimizer state and key of the restarted run equal those of the uninterrupted run, and it writes the same regular checkpoints from N on.", "quantifier": "every deterministic walker_fn/update_param_fn, every checkpoint written by the run, every total number of epochs", "why_tests_cant": "It is a statement about every crash/restart point of every run; tests compare one restart of one short run.", "anchors": ["vmcnet/train/vmc.py:vmc_loop", "vmcnet/train/runners.py:run_molecule", "vmcnet/utils/io.py:save_vmc_state", "vmcnet/utils/io.py:reload_vmc_state"]}
{"id": "C03", "title": "Metric files: one line per epoch in order, and resume+append equals the uninterrupted file", "statement": "Each metric's text file holds exactly one line per completed epoch, in epoch order. After reloading a checkpoint with stored epoch e>0 in append mode the copied (truncated) file plus the lines of the resumed run is the file of the uninterrupted run. For e=0 the claim fails: truncation to 0 lines is treated as 'no truncation' and epochs are duplicated.", "quantifier": "every metric stream, run length and reload epoch", "why_tests_cant": "Ranges over all run lengths and all reload points; the failing case e=0 is one a test would have to guess.", "anchors": ["vmcnet/utils/io.py:append_metric_to_file", "vmcnet/utils/io.py:copy_txt_stats", "vmcnet/train/runners.py:run_molecule", "vmcnet/utils/checkpoint.py:MetricsWriter"]}
{"id": "C04", "title": "Best checkpoint is the pre-epoch state of the earliest epoch with the minimal error-adjusted running average", "statement": "When no metric is NaN, after the run the file best_checkpoint.npz holds the pre-epoch state of the first epoch at which the error-adjusted running average attains its minimum over the run, whatever best_checkpoint_every>=1 is; it is absent only if no epoch was recorded.", "quantifier": "every stream of energies and variances, every best_checkpoint_every, every history length and variance scale", "why_tests_cant": "Needs an invariant over all histories (pending in-memory best vs. saved best); tests check one stream with the metric mocked out.", "anchors": ["vmcnet/utils/checkpoint.py:track_and_save_best_checkpoint", "vmcnet/utils/checkpoint.py:finish_checkpointing", "vmcnet/utils/checkpoint.py:get_checkpoint_metric"]}
{"id": "C05", "title": "A NaN energy permanently disables best checkpoints (with NaN aborts off)", "statement": "If check_for_nans is off and a NaN energy (or variance, when variance is used) enters the running history, the running average and the best-so-far metric become NaN and no later epoch is ever recorded as best, however good its energy. So the unconditional version of the best-checkpoint property is false; it is proved exactly under the no-NaN hypothesis.", "quantifier": "every metric stream containing one NaN, every continuation of it", "why_tests_cant": "It is about every infinite continuation after a rare event.", "anchors": ["vmcnet/utils/checkpoint.py:RunningMetric.move_history_window", "vmcnet/utils/checkpoint.py:save_metrics_and_handle_checkpoints"]}
{"id": "C06", "title": "NaN abort: loop stops at the first NaN epoch, leaves a diagnostic checkpoint and keeps the earlier files", "statement": "With check_for_nans on and a log directory, vmc_loop stops at the first epoch whose unclipped energy or variance or new parameters contain NaN, reports nans_detected=True, and has written exactly one file nans_(epoch+1).npz holding the pre-epoch state of that epoch; if no such epoch occurs, all epochs run and the flag is False.", "quantifier": "every walker_fn/update_param_fn/metric stream", "why_tests_cant": "Claims about the first NaN in any history.", "anchors": ["vmcnet/train/vmc.py:vmc_loop", "vmcnet/utils/checkpoint.py:check_metrics_and_params_for_nans", "vmcnet/utils/checkpoint.py:save_metrics_and_regular_checkpoint"]}
{"id": "C07", "title": "Without a log directory the loop has no file effects and never reports NaNs", "statement": "With logdir=None the loop queues no checkpoint or metric, its numerical result is the same as with any logging configuration that does not abort, and nans_detected is always False - so check_for_nans is silently ineffective (the documented abort does not happen).", "quantifier": "every walker_fn/update_param_fn, configuration and epoch count", "why_tests_cant": "Universally quantified non-effect (absence of writes) and equality of whole trajectories.", "anchors": ["vmcnet/utils/checkpoint.py:save_metrics_and_handle_checkpoints", "vmcnet/train/vmc.py:vmc_loop"]}
{"id": "C08", "title": "Running average is the exact mean of a sliding window", "statement": "After any sequence of updates the running average equals the arithmetic mean of the retained history, and the history is the most recent values. The window keeps nhistory_max-1 values (documentation says nhistory_max), and nhistory_max=1 divides by zero on the first update.", "quantifier": "every sequence of metric values and every nhistory_max", "why_tests_cant": "Invariant over every update history; the repository's tests mock the metric and never exercise the window.", "anchors": ["vmcnet/utils/checkpoint.py:RunningMetric", "vmcnet/utils/checkpoint.py:RunningMetric.move_history_window"]}
{"id": "C09", "title": "Background writer: every queued item is written exactly once, in order, for every interleaving", "statement": "For every interleaving of the producer and the writer thread, including timeouts of the blocking get at arbitrary moments, the items written are always a prefix of the items queued in queue order, and when the context manager exits (writer joined) every queued item has been written exactly once. The writer always terminates after close.", "quantifier": "every schedule of the two threads, every number of items, every placement of queue timeouts", "why_tests_cant": "Concurrency: the number of schedules is unbounded.", "anchors": ["vmcnet/utils/checkpoint.py:ThreadedWriter"]}
{"id": "C10", "title": "Background writer: a failing write silently drops everything after it", "statement": "If writing one item raises, the writer thread dies: for every schedule nothing after that item is ever written, and close() still returns normally (the main thread sees no error). The stronger claim 'close returning means everything is written' is refuted in the presence of write errors.", "quantifier": "every schedule, every position of the failing item", "why_tests_cant": "Fault injection at every point of every schedule.", "anchors": ["vmcnet/utils/checkpoint.py:ThreadedWriter"]}
{"id": "C11", "title": "Crash safety of checkpoints on disk", "statement": "At every crash point of the sequence of file operations, every regular checkpoint whose write completed is intact and equals what was saved (regular checkpoints never overwrite each other). The best checkpoint is rewritten in place: there are crash points at which no valid best checkpoint exists although one had been saved before.", "quantifier": "every crash point in every sequence of checkpoint writes", "why_tests_cant": "Crash points are exactly what unit tests do not enumerate.", "anchors": ["vmcnet/utils/io.py:save_vmc_state", "vmcnet/utils/checkpoint.py:CheckpointWriter", "vmcnet/utils/checkpoint.py:track_and_save_best_checkpoint"]}
{"id": "C12", "title": "Unique names: fresh, minimal and always found", "statement": "add_suffix_for_uniqueness always terminates (finitely many existing names), returns a name such that name+suffix does not exist, and returns the base name if free, otherwise base_i for the least i>=1 that is free. A trailing path separator is stripped only from the first candidate.", "quantifier": "every finite set of existing names, base name and suffix", "why_tests_cant": "All directory contents.", "anchors": ["vmcnet/utils/io.py:add_suffix_for_uniqueness", "vmcnet/utils/io.py:_save_to_unique_json"]}
{"id": "C13", "title": "Config JSON round trip preserves tuples", "statement": "Saving a configuration and loading it back gives the same configuration provided its sequences are tuples at every depth; lists come back as tuples, and only tuples occur outside dictionaries stored inside sequences. A dictionary stored inside a sequence keeps its lists as lists after loading, so the unrestricted claim is refuted.", "quantifier": "every configuration tree of any depth", "why_tests_cant": "Structural induction over arbitrary nesting.", "anchors": ["vmcnet/utils/io.py:load_config_dict", "vmcnet/utils/io.py:_convert_dict_lists_to_tuples", "vmcnet/utils/io.py:save_config_dict_to_json"]}
{"id": "C14", "title": "Checkpoint save/reload round trip", "statement": "Reloading a saved checkpoint returns the same epoch, data, parameters, optimizer state (any shape, including tuples and single-entry dictionaries) and key; for distributed runs the re-replicated parameters and optimizer state equal the originals exactly when the originals were identical on all devices.", "quantifier": "every state tuple, optimizer-state shape and device count", "why_tests_cant": "All pytrees and all device counts.", "anchors": ["vmcnet/utils/io.py:save_vmc_state", "vmcnet/utils/io.py:reload_vmc_state", "vmcnet/utils/io.py:process_checkpoint_data_for_saving", "vmcnet/utils/distribute.py:distribute_vmc_state_from_checkpoint"]}
{"id": "C15", "title": "Reload/preset flag logic is total and exclusive", "statement": "Command-line handling either raises an error or yields exactly one source of configuration (reloaded run, preset, or default); a reload happens iff a reload logdir is given and the config file is requested; conflicting presets or reload with presets always error; debug_nans forces non-distributed execution on the path where it is honoured.", "quantifier": "every combination of flags", "why_tests_cant": "Complete case analysis over the flag space including error branches.", "anchors": ["vmcnet/train/parse_config_flags.py:parse_flags"]}
{"id": "C16", "title": "Default configuration has no shared mutable sub-dictionaries", "statement": "After copying, every dictionary-valued position in the configuration is a distinct object: mutating one entry never changes an entry reached by a different path, and the copied tree has the same content as the source.", "quantifier": "every nested configuration with arbitrary sharing of sub-dictionaries", "why_tests_cant": "Aliasing over arbitrary object graphs.", "anchors": ["vmcnet/train/default_config.py:_copy_all_dicts", "vmcnet/train/default_config.py:get_default_config"]}
{"id": "C17", "title": "Acceptance probability is min(1,|psi'|^2/|psi|^2) and lies in [0,1]; log and plain modes agree", "statement": "For finite amplitudes the acceptance probability is in [0,1], equals min(1,(psi'/psi)^2) (1 when psi=0), and feeding log|psi| in log mode gives the same number as feeding psi in plain mode whenever both amplitudes are non-zero.", "quantifier": "all real amplitudes", "why_tests_cant": "All reals, including the zero-amplitude branch.", "anchors": ["vmcnet/mcmc/metropolis.py:metropolis_symmetric_acceptance"]}
{"id": "C18", "title": "Detailed balance and stationarity of the Metropolis step", "statement": "For any symmetric proposal kernel the transition probabilities built from the acceptance rule satisfy detailed balance with respect to |psi|^2, and |psi|^2 is stationary under one step and hence under any number of steps.", "quantifier": "every finite state space, amplitude function and symmetric proposal kernel; every number of steps", "why_tests_cant": "Equality of distributions for all kernels; tests can only do statistical checks.", "anchors": ["vmcnet/mcmc/metropolis.py:make_metropolis_step", "vmcnet/mcmc/metropolis.py:metropolis_symmetric_acceptance", "vmcnet/mcmc/metropolis.py:walk_data"]}
{"id": "C19", "title": "Walker updates are atomic and amplitudes stay consistent with positions", "statement": "After any number of Metropolis steps and parameter updates, each walker's stored amplitude equals the model evaluated at its stored position with the current parameters; each step moves a walker entirely (position and amplitude of the proposal) or not at all.", "quantifier": "every model, parameters, number of walkers, randomness and interleaving of steps and updates", "why_tests_cant": "Invariant over all histories.", "anchors": ["vmcnet/mcmc/position_amplitude_core.py:make_position_amplitude_update", "vmcnet/mcmc/position_amplitude_core.py:get_update_data_fn", "vmcnet/updates/params.py:create_grad_energy_update_param_fn"]}
{"id": "C20", "title": "walk_data is exact iteration of the step with averaged acceptance", "statement": "walk_data(nsteps) returns the state after exactly nsteps applications of the step function (threading the key) and the arithmetic mean of their acceptance ratios; splitting a walk into two consecutive walks gives the same state; burn_data applies its step exactly nburn times.", "quantifier": "every step function, nsteps and initial state", "why_tests_cant": "For all step counts.", "anchors": ["vmcnet/mcmc/metropolis.py:walk_data", "vmcnet/mcmc/metropolis.py:burn_data", "vmcnet/mcmc/metropolis.py:make_jitted_walker_fn"]}
{"id": "C21", "title": "No PRNG key is consumed twice during a run", "statement": "Over the whole training loop (burning, every walker step, every gradient update), each key consumed by a random draw is distinct from every other consumed key and from every key still to be used. In evaluation mode with per-walker random keys the returned key is a batch of already consumed keys, which refutes the property for that mode.", "quantifier": "every number of epochs and steps, every configuration", "why_tests_cant": "All run lengths; independence is not observable by unit tests.", "anchors": ["vmcnet/mcmc/metropolis.py:make_metropolis_step", "vmcnet/mcmc/metropolis.py:gaussian_proposal", "vmcnet/updates/params.py:create_grad_energy_update_param_fn", "vmcnet/updates/params.py:create_eval_update_param_fn"]}
{"id": "C22", "title": "Dynamic step width: positive, bounded change rate, counters exact", "statement": "The proposal width stays positive for ever, changes only every nmoves_per_update moves, by a factor in [1-adj,1+adj], is left alone when the windowed acceptance is within the threshold, and the acceptance window seen by each adjustment is exactly the mean acceptance of the last nmoves moves.", "quantifier": "every acceptance history and every parameter setting with 0<=adj<1", "why_tests_cant": "Invariant over all histories.", "anchors": ["vmcnet/mcmc/dynamic_width_position_amplitude.py:make_update_move_metadata_fn", "vmcnet/mcmc/dynamic_width_position_amplitude.py:make_threshold_adjust_std_move"]}
{"id": "C23", "title": "Escaping from a node: plain amplitudes always accept, log amplitudes at -inf can be stuck", "statement": "A walker whose amplitude is zero accepts every move in plain mode; in log mode it accepts every move to a finite amplitude, but a move between two exact nodes gives NaN and is rejected: the two modes disagree exactly there.", "quantifier": "all extended amplitudes", "why_tests_cant": "Boundary values of the extended reals, universally.", "anchors": ["vmcnet/mcmc/metropolis.py:metropolis_symmetric_acceptance", "vmcnet/mcmc/metropolis.py:make_metropolis_step"]}
{"id": "C24", "title": "Autocorrelation via zero-padded FFT equals the direct definition", "statement": "The FFT computation with padding 2N returns exactly the linear (non-circular) autocorrelation sum_t x_t x_{t+i}/(N-i), normalised so that lag 0 is 1 for every non-constant chain; it is invariant under shifting and non-zero rescaling of the chain.", "quantifier": "every chain length N, every real chain, every lag below N", "why_tests_cant": "Algebraic identity for all lengths.", "anchors": ["vmcnet/mcmc/statistics.py:per_chain_autocorr_fast"]}
{"id": "C25", "title": "Integrated autocorrelation time: properties of the truncation estimator", "statement": "tau = -1 + 2*(sum of the positive, monotone-decreasing envelope of pair sums); every curve whose first pair sum is non-negative gives tau>=-1, and tau>=1 when rho_0=1,rho_1>=0; entries after the first negative pair never influence the result; if the first pair sum is negative tau=-1, so the reported standard error is the root of a negative number (reachable for real data).", "quantifier": "every finite real autocorrelation curve", "why_tests_cant": "All curves of all lengths.", "anchors": ["vmcnet/mcmc/statistics.py:tau", "vmcnet/mcmc/statistics.py:get_stats_summary"]}
{"id": "C26", "title": "Multi-chain variance and autocorrelation are well normalised", "statement": "For at least two chains of at least two samples with positive overall variance, the multi-chain autocorrelation at lag 0 is 1 - and the overall variance equals within*(N-1)/N + between and is non-negative; the statistics are invariant under adding a constant to all samples and scale correctly under multiplication.", "quantifier": "every number of chains and samples, all real samples", "why_tests_cant": "All data sets.", "anchors": ["vmcnet/mcmc/statistics.py:multi_chain_autocorr_and_variance", "vmcnet/mcmc/statistics.py:get_stats_summary"]}
{"id": "C27", "title": "Distributing walkers to devices is a bijection; bad sizes are rejected", "statement": "Distributing data over any number of devices and gathering it gives back the walkers in order, each device getting the same number; if the number of chains is not divisible by the number of devices an error is raised; replicating and taking the first copy is the identity.", "quantifier": "every number of devices and chains, every data leaf", "why_tests_cant": "All sizes.", "anchors": ["vmcnet/utils/distribute.py:reshape_data_leaves_for_distribution", "vmcnet/utils/distribute.py:default_distribute_data", "vmcnet/utils/distribute.py:replicate_all_local_devices", "vmcnet/utils/distribute.py:get_first"]}
{"id": "C28", "title": "Averages over devices equal the global average (and the NaN-safe ones do not)", "statement": "The mean of per-device means over evenly distributed data equals the mean over all walkers. For the NaN-safe mean this is false when NaNs are unevenly spread; it holds when every device has the same number of non-NaN walkers.", "quantifier": "every device count, data set and NaN pattern", "why_tests_cant": "All shardings and NaN patterns.", "anchors": ["vmcnet/utils/distribute.py:get_mean_over_first_axis_fn", "vmcnet/utils/distribute.py:mean_all_local_devices", "vmcnet/utils/distribute.py:nanmean_all_local_devices"]}
{"id": "C29", "title": "Local-energy clipping: stays in the window, identity inside it, no effect on NaN-free small deviations", "statement": "Clipped local energies lie within threshold*total_variation of the centre, energies inside are untouched, clipping is monotone and idempotent with a fixed window and bounds the influence of a single outlier. With the default mean centre and NaN-safe averaging a single NaN energy turns every clipped energy into NaN (refuting NaN safety), while the median centre keeps it contained; the window is computed per device, so the result depends on the sharding (refuted device-independence).", "quantifier": "every batch of local energies, threshold and sharding", "why_tests_cant": "All batches, including NaN patterns and shardings.", "anchors": ["vmcnet/train/runners.py:total_variation_clipping_fn", "vmcnet/train/runners.py:_get_clipping_fn", "vmcnet/physics/core.py:get_clipped_energies_and_aux_data"]}
{"id": "C30", "title": "Reported energy and variance are the sample mean and unbiased sample variance", "statement": "For NaN-free energies the reported energy is the mean and the reported variance is n/(n-1) times the mean squared deviation, non-negative, zero iff all energies agree, shift invariant, independent of walker order and of the number of devices; unclipped statistics are always computed without NaN filtering.", "quantifier": "every batch of local energies, every device count", "why_tests_cant": "All batches.", "anchors": ["vmcnet/physics/core.py:get_statistics_from_local_energy", "vmcnet/physics/core.py:get_clipped_energies_and_aux_data"]}
{"id": "C31", "title": "Energy gradient estimator is twice the sample covariance of local energy and log-derivative", "statement": "The gradient returned by the energy value-and-grad function equals 2 * unbiased sample covariance of the (clipped) local energies with the parameter derivative of log|psi|; it is invariant under adding a constant to all local energies and vanishes if all local energies are equal (eigenstate); its expectation under exact sampling is the derivative of the energy.", "quantifier": "every batch, every model family", "why_tests_cant": "Identity for all batches and models; expectation over a distribution.", "anchors": ["vmcnet/physics/core.py:create_value_and_grad_energy_fn"]}
{"id": "C32", "title": "Combining energy terms is their sum, independent of order", "statement": "The combined local energy equals the sum of the terms, regardless of order, and an empty potential list is just the kinetic term.", "quantifier": "every list of terms, parameters and positions", "why_tests_cant": "All lists.", "anchors": ["vmcnet/physics/core.py:combine_local_energy_terms"]}
{"id": "C33", "title": "Kinetic energy from log|psi|: laplacian identity", "statement": "For every twice-differentiable, non-zero psi, the quantity computed from derivatives of log|psi| (laplacian plus squared gradient) equals laplacian(psi)/psi, so the kinetic energy is -1/2 laplacian(psi)/psi.", "quantifier": "every twice-differentiable nowhere-zero wavefunction and position, any number of particles in 3 dimensions", "why_tests_cant": "An identity of functions.", "anchors": ["vmcnet/physics/core.py:laplacian_psi_over_psi", "vmcnet/physics/kinetic.py:create_laplacian_kinetic_energy"]}
{"id": "C34", "title": "Coulomb potentials: symmetry, invariance and sign", "statement": "Electron-ion, electron-electron and ion-ion potentials are invariant under electron permutation, under simultaneous ion permutation (with charges), and under common translations and reflections; the electron-electron potential is non-negative, the electron-ion one non-positive for positive charges; ion-ion does not depend on the electrons.", "quantifier": "every configuration, number of particles, softening", "why_tests_cant": "All configurations and permutations.", "anchors": ["vmcnet/physics/potential.py"]}
{"id": "C35", "title": "Electron-electron repulsion counts every pair exactly once; sampled versions are unbiased", "statement": "The potential equals the sum over unordered pairs of strength/distance; the nparticles version weights pairs as documented; with nparticles=n it is the full potential; averaged over all particle orders the sampled electron-electron and electron-ion potentials equal the full potentials when 1 <= nparticles <= n; nparticles > n silently scales them by n/nparticles and nparticles = 0 is an error.", "quantifier": "every number of electrons and nparticles >=1, every configuration", "why_tests_cant": "All sizes; average over all permutations.", "anchors": ["vmcnet/physics/potential.py:create_electron_electron_coulomb_potential", "vmcnet/physics/potential.py:create_electron_ion_coulomb_potential", "vmcnet/physics/random_particle.py:assemble_random_particle_local_energy"]}
{"id": "C36", "title": "Random-particle kinetic energy is unbiased in 3D (and wrong in other dimensions)", "statement": "Averaged over all particle orders, the sampled kinetic energy equals the full kinetic energy for 3-dimensional particles; in other dimensions the hard-coded factor 3 keeps it unbiased only when the 3*nparticles sampled coordinates are whole particles (refuted for 2 dimensions and 1 sampled particle), and more sampled particles than electrons gives a wrong value (refuted). The whole sampled local energy is unbiased in 3D for every choice of sampled terms.", "quantifier": "every number of particles, every sampled count, every derivative data", "why_tests_cant": "All sizes and all permutations.", "anchors": ["vmcnet/physics/core.py:laplacian_psi_over_psi", "vmcnet/physics/random_particle.py:create_random_particle_kinetic_energy"]}
{"id": "C37", "title": "Softened norm and its hand-written derivative", "statement": "The softened norm is >= the plain norm and >= |softening|, zero only if both vanish; the hand-written backward rule is the true derivative with respect to the displacement wherever the norm is non-zero, and 0 where it is zero; the derivative rule for the softening is the true one for a single displacement.", "quantifier": "every displacement of every dimension and every softening", "why_tests_cant": "Derivative identity at every point.", "anchors": ["vmcnet/physics/potential.py:compute_soft_norm", "vmcnet/physics/potential.py:_soft_norm_bwd"]}
{"id": "C38", "title": "Integration-by-parts potential: its laplacian is the Coulomb potential only without softening", "statement": "The auxiliary potential used by the integrated-by-parts energy has laplacian equal to the Coulomb potential away from coincidences in 3D with zero softening, and not for non-zero softening (refuted); the IBP and standard local energies differ by an exact divergence.", "quantifier": "every configuration without coincidences", "why_tests_cant": "Functional identity.", "anchors": ["vmcnet/physics/ibp.py:create_ibp_energy_term", "vmcnet/physics/ibp.py:create_ibp_local_energy"]}
{"id": "C39", "title": "Hydrogen-like atom has constant local energy at the exact decay", "statement": "For the hydrogen-like example the local energy is the exact formula -decay^2/2 + ((d-1)*decay/2 - Z)/r for every position r != 0, hence constant exactly when decay = 2Z/(d-1).", "quantifier": "every position, dimension, charge and decay rate", "why_tests_cant": "All positions.", "anchors": ["vmcnet/examples/hydrogen_like_atom.py"]}
{"id": "C40", "title": "Harmonic-oscillator orbitals are Hermite functions and eigenfunctions", "statement": "The recursively built polynomials are the physicists' Hermite polynomials for every order; they satisfy the Hermite differential equation, so each orbital is an eigenfunction with energy omega*(n+1/2), and the local energy of the N-orbital determinant ansatz is constant.", "quantifier": "every number of particles, every omega, every position", "why_tests_cant": "Induction on polynomial order.", "anchors": ["vmcnet/examples/harmonic_oscillator.py:make_hermite_polynomials", "vmcnet/examples/harmonic_oscillator.py:HarmonicOscillatorOrbitals"]}
{"id": "C41", "title": "Spin-squared estimator", "statement": "The local spin exchange equals -nup*ndown*F(R with first up/down swapped)/F(R) for every non-zero F, is 0 when one species is absent, and the estimator equals (Sz)^2 + N/2 + mean exchange; for a wavefunction antisymmetric under that exchange with one electron of each spin it yields 2 (triplet) and for a symmetric one 0 (singlet).", "quantifier": "every wavefunction and electron count", "why_tests_cant": "All wavefunctions.", "anchors": ["vmcnet/physics/spin.py"]}
{"id": "C42", "title": "Splitting particles by spin is exact", "statement": "get_nelec_per_split and the split operation partition the particles: sizes add up to the total, concatenating the splits gives the input, number of splits is consistent for equal and explicit splits.", "quantifier": "every spin_split specification and number of particles", "why_tests_cant": "All sizes.", "anchors": ["vmcnet/models/core.py:get_nelec_per_split", "vmcnet/models/core.py:get_nsplits", "vmcnet/models/core.py:get_spin_split"]}
{"id": "C43", "title": "Backflow streams are permutation equivariant", "statement": "Permuting electrons within a spin permutes the one-electron features, and two-electron features in both indices; equivariance holds for any number of residual blocks, any parameters and nonlinearity.", "quantifier": "every network depth, width, weights and activation; every within-spin permutation", "why_tests_cant": "All parameters and permutations.", "anchors": ["vmcnet/models/equivariance.py:FermiNetBackflow", "vmcnet/models/equivariance.py:FermiNetResidualBlock", "vmcnet/models/equivariance.py:FermiNetOneElectronLayer", "vmcnet/models/equivariance.py:FermiNetTwoElectronLayer"]}
{"id": "C44", "title": "FermiNet wavefunction is antisymmetric (all determinant modes)", "statement": "Exchanging two same-spin electrons flips the sign and preserves the magnitude of the wavefunction, for product-of-determinants, full determinant and the additional determinant-function modes; hence it vanishes when two same-spin electrons coincide.", "quantifier": "every equivariant orbital map (hence every parameters and depth), number of electrons and determinants", "why_tests_cant": "All parameters, sizes and permutations.", "anchors": ["vmcnet/models/construct.py:FermiNet", "vmcnet/models/antisymmetry.py:slogdet_product"]}
{"id": "C45", "title": "Lexicographic permutation signs are right", "statement": "The sign vector attached to itertools' lexicographic permutation order is the true parity for every n, so the explicit antisymmetrisers use the correct signs.", "quantifier": "every n and permutation index", "why_tests_cant": "Induction on n; n! growth makes testing infeasible.", "anchors": ["vmcnet/models/antisymmetry.py:_get_lexicographic_signs", "vmcnet/models/antisymmetry.py:ParallelPermutations"]}
{"id": "C46", "title": "Explicit antisymmetrisation is antisymmetric", "statement": "The factorised and generic explicit antisymmetrisers turn every function into one that is antisymmetric within each spin block, vanishing at coincidences, and fix (up to the factor n!) functions that are already antisymmetric.", "quantifier": "every function, number of particles per spin and inputs", "why_tests_cant": "All functions.", "anchors": ["vmcnet/models/antisymmetry.py:FactorizedAntisymmetrize", "vmcnet/models/antisymmetry.py:GenericAntisymmetrize"]}
{"id": "C47", "title": "Sign symmetrisation yields covariant/invariant functions", "statement": "Applying the sign-covariance construction to any function of signed inputs gives a function that is odd in each sign; the invariance construction gives one that is even in each sign, in plain and sign-log form.", "quantifier": "every function, number of inputs and sign pattern", "why_tests_cant": "All functions and all 2^n patterns for all n.", "anchors": ["vmcnet/models/sign_symmetry.py"]}
{"id": "C48", "title": "Cofactor antiequivariance", "statement": "The cofactor layer's outputs are antiequivariant (permute and pick up the sign) and satisfy the expansion identity: summed appropriately they give the determinant.", "quantifier": "every matrix size and content", "why_tests_cant": "All sizes.", "anchors": ["vmcnet/models/antiequivariance.py:get_submatrices_and_product_outputs", "vmcnet/models/antiequivariance.py:cofactor_antieq", "vmcnet/models/antiequivariance.py:slog_cofactor_antieq"]}
{"id": "C49", "title": "Invariant tensor is permutation invariant", "statement": "The invariance layer's outputs do not change under within-spin permutation of the electrons.", "quantifier": "every parameters, number of electrons, permutation", "why_tests_cant": "All parameters and permutations.", "anchors": ["vmcnet/models/invariance.py:InvariantTensor"]}
{"id": "C50", "title": "Jastrow factors are permutation invariant and have their documented limits", "statement": "One-body, two-body molecular and backflow Jastrow factors are invariant under electron permutations; the two-body log-Jastrow scaled for chargeless molecules is 0 when Z_j electrons sit at ion j for the default electron-electron strength 1, and not for other strengths (refuted for the documented general case). The one-body log-Jastrow is -sum_ij |a (r_i - R_j)| with one rate a for all ions; the documented one rate a_j per ion is refuted.", "quantifier": "every configuration, number of particles and parameters", "why_tests_cant": "All configurations.", "anchors": ["vmcnet/models/jastrow.py"]}
{"id": "C51", "title": "Sign-log arithmetic is a faithful representation of real arithmetic", "statement": "Conversion to sign-log form and back is the identity on all reals; product and sum over an axis computed in sign-log form equal the real product and sum; weighted log-linear-exp equals the weighted sum. If all inputs are zero (log = -inf) the sum is NaN instead of zero (refuted).", "quantifier": "every list of reals of every length, all weights", "why_tests_cant": "All inputs incl. zeros.", "anchors": ["vmcnet/utils/slog_helpers.py", "vmcnet/utils/log_linear_exp.py"]}
{"id": "C52", "title": "Log-domain dense layers equal ordinary dense layers in the exponential domain", "statement": "The log-domain dense layer applied to sign-log input represents the ordinary dense layer applied to the represented values, with and without bias.", "quantifier": "every input, weights and size, apart from the all-zero-sum case", "why_tests_cant": "All inputs.", "anchors": ["vmcnet/models/core.py:LogDomainDense", "vmcnet/models/core.py:LogDomainResNet"]}
{"id": "C53", "title": "Orbital cofactor layers pass their configuration to the orbital layer", "statement": "Every configuration option of the orbital-cofactor antiequivariance layers reaches the orbital layer under its own name. This is refuted: positional arguments are shifted by one so orbitals_use_bias is used as the envelope softening and isotropic_decay as use_bias.", "quantifier": "every configuration", "why_tests_cant": "All configurations; the type-compatible misuse does not crash.", "anchors": ["vmcnet/models/antiequivariance.py:OrbitalCofactorAntiequivarianceLayer", "vmcnet/models/antiequivariance.py:SLogOrbitalCofactorAntiequivarianceLayer", "vmcnet/models/equivariance.py:FermiNetOrbitalLayer"]}
{"id": "C54", "title": "Input streams: flattened one-electron input in every configuration", "statement": "The one-electron input stream has shape (nelec, nion*d or nion*(d+1)) whenever ion positions are given. This is refuted when the ion norm is not included: the stream keeps its (nelec, nion, d) shape and is not flattened.", "quantifier": "every flag combination and sizes", "why_tests_cant": "All flag combinations.", "anchors": ["vmcnet/models/equivariance.py:compute_electron_ion", "vmcnet/models/equivariance.py:compute_input_streams"]}
{"id": "C55", "title": "Spin-cyclic concatenation is consistent", "statement": "The mixing of spin-averaged features uses for each spin block its own mean first and then the others in cyclic order, so equal treatment of the spin blocks: cyclically relabelling the blocks permutes the outputs.", "quantifier": "every number of spin blocks and features", "why_tests_cant": "All sizes.", "anchors": ["vmcnet/models/equivariance.py:FermiNetOneElectronLayer", "vmcnet/models/core.py:_split_mean"]}
{"id": "C56", "title": "SPRING step solves its regularised least-squares problem", "statement": "The SPRING update computed with the small nchains x nchains matrix is the unique minimiser of the regularised least squares problem in parameter space: (O^T O + damping I) dtheta = O^T eps + damping*mu*prev, for every damping>0. Momentum mixes in the previous direction; a common shift of the energies changes nothing; the remembered previous direction is the raw one, before learning rate and norm constraint.", "quantifier": "every number of walkers and parameters, every data, every damping>0", "why_tests_cant": "Matrix identity for all sizes.", "anchors": ["vmcnet/updates/spring.py:get_spring_update_fn"]}
{"id": "C57", "title": "SPRING norm constraint and multi-device consistency", "statement": "The constrained update has squared norm (averaged over devices) at most the constraint and is parallel to the unconstrained one, and unchanged if already within. Under several devices the update uses only each device's own walkers, so replicas of the parameters diverge (refuted equality of replicas).", "quantifier": "every update, constraint and sharding", "why_tests_cant": "All inputs and device counts.", "anchors": ["vmcnet/updates/spring.py:constrain_norm", "vmcnet/updates/spring.py:get_spring_update_fn"]}
{"id": "C58", "title": "SR Fisher operators agree and are positive definite", "statement": "The lazily applied Fisher matrix-vector product equals the explicitly built one on every vector; it is symmetric, positive semi-definite, and positive definite with damping>0, so the linear system has a unique solution. The direction returned by either mode solves it to relative accuracy 1e-5 whenever the iteration limit is absent or at least the number of parameters; with any limit it is no further from the solution (in the operator's norm) than the plain gradient.", "quantifier": "every batch of log-derivatives on any number of devices, vector, damping>0, iteration limit", "why_tests_cant": "All sizes.", "anchors": ["vmcnet/updates/sr.py:get_fisher_inverse_fn"]}
{"id": "C59", "title": "SR norm constraint", "statement": "The constrained SR direction has Fisher norm times lr^2 at most the constraint, is parallel to the original and is unchanged if already within the constraint; with a negative inner product the update is NaN.", "quantifier": "every gradient, preconditioned gradient, lr and constraint", "why_tests_cant": "All inputs.", "anchors": ["vmcnet/updates/sr.py:constrain_norm"]}
{"id": "C60", "title": "Learning-rate schedules", "statement": "The constant schedule is constant; the inverse-time schedule is positive, non-increasing, starts at the base rate and equals lr/(1+decay*t); its sum diverges and the sum of squares stays bounded; every other name is rejected with an error.", "quantifier": "every step count, base rate and decay", "why_tests_cant": "All t.", "anchors": ["vmcnet/updates/parse_config.py:_get_learning_rate_schedule"]}
{"id": "C61", "title": "Parameter updates refresh the walkers' amplitudes; evaluation never changes parameters", "statement": "After a training update the returned data carries amplitudes for the NEW parameters; and so do the returned data and every checkpoint of a whole training run; a whole evaluation run returns parameters and optimizer state unchanged, writes no checkpoint and moves the walkers only by walking.", "quantifier": "every model, optimiser and number of epochs", "why_tests_cant": "All histories.", "anchors": ["vmcnet/updates/params.py:create_grad_energy_update_param_fn", "vmcnet/updates/params.py:create_eval_update_param_fn"]}
{"id": "C62", "title": "FermiNets with hidden particles or hidden orbital rows are antisymmetric", "statement": "EmbeddedParticleFermiNet and ExtendedOrbitalMatrixFermiNet are antisymmetric under exchanges of same-spin electrons although they append learned hidden particles or learned orbital rows computed from all electrons; at same-spin coincidences they return NaN (without a determinant function) or zero or NaN (with one).", "quantifier": "every parameters, backflow depth, number of hidden particles per spin, electrons and permutations within spins", "why_tests_cant": "All sizes, parameters and permutations.", "anchors": ["vmcnet/models/construct.py:EmbeddedParticleFermiNet", "vmcnet/models/construct.py:ExtendedOrbitalMatrixFermiNet"]}
{"id": "C63", "title": "Antiequivariance networks are antisymmetric unless their products readout has weights", "statement": "AntiequivarianceNet (cofactor or per-particle determinant features, optionally multiplied by equivariant features) is antisymmetric with the unweighted products readout and with the odd-backflow readout; with use_weights=True it is not.", "quantifier": "every parameters, sizes and permutations within spins", "why_tests_cant": "All sizes, parameters and permutations; the failing option is off in the default configuration.", "anchors": ["vmcnet/models/construct.py:AntiequivarianceNet", "vmcnet/models/construct.py:get_sign_covariance_from_config", "vmcnet/models/sign_symmetry.py:ProductsSignCovariance"]}
{"id": "C64", "title": "Explicitly antisymmetrised networks with Jastrow factors are antisymmetric", "statement": "FactorizedAntisymmetry and GenericAntisymmetry with any of the four Jastrow factors (one-body, two-body, backflow-based, their sum) are antisymmetric under exchanges of same-spin electrons, for all positions including infinite and NaN coordinates; at same-spin coincidences the factorized form returns NaN and the generic one zero or NaN.", "quantifier": "every parameters, sizes, positions and permutations within spins", "why_tests_cant": "All sizes, parameters and permutations.", "anchors": ["vmcnet/models/construct.py:FactorizedAntisymmetry", "vmcnet/models/construct.py:GenericAntisymmetry", "vmcnet/models/jastrow.py:TwoBodyExpDecay"]}
{"id": "C65", "title": "Resuming a whole job reproduces the uninterrupted job", "statement": "A job killed at any moment after a checkpoint was written, and resumed from that checkpoint with the default reload options (in a new directory or in the same one), ends like the job that was never interrupted: same ending, same final parameters, same metric files, same evaluation files and statistics, same later regular checkpoints - provided the copies of the parameters on the devices are equal. With a new optimizer state instead, all epochs are run again and numbered from 0.", "quantifier": "every job (model, optimiser, sampler, energies), checkpoint with epoch>0, point of interruption of each metric file", "why_tests_cant": "Quantifies over crash points, job lengths and arbitrary training functions.", "anchors": ["vmcnet/train/runners.py:run_molecule", "vmcnet/utils/io.py:copy_txt_stats", "vmcnet/utils/io.py:process_checkpoint_data_for_saving"]}
{"id": "C66", "title": "best_checkpoint.npz after a resume is the best of the resumed part", "statement": "After a resume, best_checkpoint.npz holds the state before the epoch with the smallest error-adjusted running average among the epochs since the resume; a better state found before the interruption and stored in the same directory can be overwritten by a worse one.", "quantifier": "every job, checkpoint, number of epochs and finite energies", "why_tests_cant": "All histories; the metric that would make the comparison is not in the checkpoint.", "anchors": ["vmcnet/train/runners.py:run_molecule", "vmcnet/train/vmc.py:vmc_loop", "vmcnet/utils/checkpoint.py:CheckpointWriter"]}
{"id": "C67", "title": "Evaluation after training", "statement": "Evaluation uses and returns the final training parameters, writes no checkpoint, appends one row of local energies per evaluation epoch, and its statistics file summarises all rows in eval/local_energies.txt: exactly this run's samples in a fresh directory, earlier runs' rows too in a reused one. There is no evaluation after training stopped on NaNs. A single evaluation epoch or a single walker ends in an exception without statistics.", "quantifier": "every job, number of epochs and walkers, content of the log directory", "why_tests_cant": "All jobs and directory contents.", "anchors": ["vmcnet/train/runners.py:run_molecule", "vmcnet/train/runners.py:_compute_and_save_energy_statistics", "vmcnet/updates/params.py:create_eval_update_param_fn"]}
{"id": "C68", "title": "The configured local energy is the molecule's Hamiltonian acting on the wavefunction", "statement": "Whatever local energy type is configured, the job's local energy belongs to the molecular Hamiltonian: 'standard' gives (H psi)(x)/psi(x) exactly; 'random_particle' in 3D averages to it over the random electron orders for every choice of sampled parts and 1<=nparticles<=n, and equals it for every draw if all electrons are sampled; 'ibp' differs from it by an exact divergence over psi^2 for every choice of parts. Unknown types and nparticles=0 are errors; unknown part names are silently ignored.", "quantifier": "every molecule, configuration, twice differentiable wavefunction and ordinary configuration of electrons", "why_tests_cant": "Quantifies over wavefunctions, molecules, positions and all electron orders.", "anchors": ["vmcnet/train/runners.py:_assemble_mol_local_energy_fn", "vmcnet/train/runners.py:_get_energy_val_and_grad_fn", "vmcnet/physics/core.py:combine_local_energy_terms"]}
{"id": "C69", "title": "Zero-variance principle", "statement": "If the wavefunction solves the Schroedinger equation with energy E at all walkers, the reported energy is exactly E, the clipped and unclipped variances are 0 and the gradient vanishes, for every number and distribution of walkers, clipping threshold, clipping centre and NaN handling (standard local energy, and random particles with all electrons sampled). Integration by parts loses this.", "quantifier": "every molecule, eigenfunction, walkers, device layout, clipping settings", "why_tests_cant": "All eigenstates, walkers and settings; exactness cannot be seen through rounding.", "anchors": ["vmcnet/train/runners.py:_get_energy_val_and_grad_fn", "vmcnet/physics/core.py:create_value_and_grad_energy_fn", "vmcnet/train/runners.py:total_variation_clipping_fn"]}
{"id": "C70", "title": "The configured local energy respects the symmetries of the molecule", "statement": "Exchanging like electrons leaves the local energy of every type unchanged (for random particles: with the draw renumbered accordingly), and moving ions, electrons and wavefunction together by any vector changes nothing.", "quantifier": "every molecule, configuration, wavefunction with the symmetry, renumbering, translation", "why_tests_cant": "All permutations, positions and wavefunctions.", "anchors": ["vmcnet/train/runners.py:_assemble_mol_local_energy_fn", "vmcnet/physics/ibp.py:create_ibp_local_energy", "vmcnet/physics/random_particle.py:create_molecular_random_particle_local_energy"]}
{"id": "C71", "title": "No job overwrites another job's saved configuration; log directories are unique", "statement": "Over any sequence of jobs, no saved configuration, reload file or statistics file is ever changed or removed; every job that starts has its complete configuration in a file of its own in its log directory; jobs that do not ask for the directory they reload from get new, pairwise different directories whose default reload gives exactly their configuration. With same_logdir the default reload gives the old configuration; two jobs started at the same time can share a directory and lose a configuration.", "quantifier": "every finite file system, working directory, sequence of jobs and other files written, spelling of paths, interleaving of two starts", "why_tests_cant": "All histories and all interleavings; the race needs a schedule no test controls.", "anchors": ["vmcnet/train/runners.py:_get_logdir_and_save_config", "vmcnet/utils/io.py:_save_to_unique_json", "vmcnet/utils/io.py:add_suffix_for_uniqueness", "vmcnet/utils/io.py:open_or_create"]}
{"id": "C72", "title": "The configured wavefunction is antisymmetric, whatever the model section says", "statement": "For every accepted model section and molecule the job's wavefunction changes by the sign of the permutation under every relabelling of like-spin electrons, and the log amplitude the sampler uses does not change, for all six model types; the only exception is the weighted products readout. Accepted are exactly the sections with known names and matching numbers of charges; unknown names raise before training starts. The options of the chosen section reach the layers they name, and no other section matters. Exceptions: ei/ee_norm_softening and determinant_fn_mode have no effect, and the orbital_cofactor_net options reach the model under other names.", "quantifier": "every model section, molecule, spin populations, parameters, relabelling and positions", "why_tests_cant": "All configurations times all parameters, permutations and positions.", "anchors": ["vmcnet/models/construct.py:get_model_from_config", "vmcnet/models/construct.py:get_backflow_from_config", "vmcnet/models/construct.py:get_compute_input_streams_from_config", "vmcnet/train/default_config.py:choose_model_type_in_model_config", "vmcnet/models/weights.py:get_kernel_init_from_config"]}
{"id": "C73", "title": "Orbitals are the documented product of a linear part and exponential envelopes", "statement": "Orbital k of every electron is (sum_i h_i w_ik + b_k) times sum over ions of pi_ka exp(-(sqrt(|A_ka (r - R_a)|^2 + s^2) - s)), with the weights of the electron's own spin population; without ions it is the linear part. The envelope never exceeds the sum of |pi|, with isotropic decay it depends on the electron-ion distances only and falls off exponentially with the distance from the nearest ion. The documented generality of isotropic decay, one rate per ion and orbital, is refuted: there is one rate per orbital.", "quantifier": "every spin split, weights, softening, decay type, features and positions", "why_tests_cant": "All weights and positions; the bound and the decay are statements about all distances.", "anchors": ["vmcnet/models/equivariance.py:FermiNetOrbitalLayer", "vmcnet/models/equivariance.py:_compute_exponential_envelopes_on_leaf", "vmcnet/models/jastrow.py:_isotropy_on_leaf", "vmcnet/models/jastrow.py:_anisotropy_on_leaf"]}
{"id": "C74", "title": "The configured optimiser performs the documented updates", "statement": "After any history of gradients: SGD has the parameters start - sum of rate(t) times the (momentum- or Nesterov-) accumulated gradient; Adam uses weighted averages of all gradients and of their squares, and never moves a parameter by more than rate/sqrt(1-b2) in an update; stochastic reconfiguration with plain descent moves along minus the preconditioned gradient, stays within the norm constraint in the Fisher metric and never increases the linearised energy; SPRING with the norm constraint never moves by more than it and never yields NaN. The t-th update uses the schedule of the section of the chosen optimiser at t, and saving and restoring the state continues the same run. Accepted are exactly the configurations with known names. Exceptions: with momentum or Adam as descent the reconfiguration step can leave the trust region; an unsupported optimiser raises KeyError, not the documented ValueError.", "quantifier": "every optimiser section, history of gradients and log-derivatives, number of parameters and updates", "why_tests_cant": "All histories of gradients; the bounds hold for every one of them.", "anchors": ["vmcnet/updates/parse_config.py:get_update_fn_and_init_optimizer", "vmcnet/updates/parse_config.py:get_sr_update_fn_and_state", "vmcnet/updates/parse_config.py:get_spring_update_fn_and_state", "vmcnet/updates/parse_config.py:_get_adam_optax_optimizer", "vmcnet/updates/parse_config.py:_get_sgd_optax_optimizer", "vmcnet/updates/sr.py:constrain_norm"]}
{"id": "C75", "title": "A job starts from plausible walkers and keeps them complete, well-shaped and in step with the parameters", "statement": "Every initial walker has each electron at an ion plus unit-width noise of its own, on pairwise different ions when there are no more electrons than ions; each chain is assigned with its own random key, the noise is drawn with a further one, and none of these keys is derived from another. Setting up fails exactly when the walkers do not divide evenly over the devices; otherwise the devices hold all walkers in order, in equal shares, with the amplitudes of the initial parameters and the configured step width. After burn-in and any number of epochs, the returned walkers and those of every checkpoint have the same numbers and shapes, belong to the parameters stored with them, and share one positive step width. The same holds for fresh evaluation walkers.", "quantifier": "every molecule, number of electrons, chains, devices, seed, random draws, wavefunction, optimiser, burn-in length and number of epochs", "why_tests_cant": "All random draws and all lengths of runs.", "anchors": ["vmcnet/physics/core.py:initialize_molecular_pos", "vmcnet/train/runners.py:_make_initial_data", "vmcnet/train/runners.py:_get_mcmc_fns", "vmcnet/train/runners.py:_make_new_data_for_eval", "vmcnet/train/runners.py:_burn_and_run_vmc"]}
{"id": "C76", "title": "Moving the molecule and its electrons together does not change the wavefunction", "statement": "For every model section except the embedded-particle model, all parameters and all positions, adding the same vector to all ions and all electrons changes neither whether the section is accepted nor the sign and log amplitude of the wavefunction. The embedded-particle model is not translation invariant: its hidden particles stay behind and even the sign of the wavefunction can change.", "quantifier": "every model section, molecule, spin populations, parameters, positions (NaN and infinities included) and translation vector", "why_tests_cant": "All translations times all configurations and parameters; in floating point a test sees the invariance only up to rounding.", "anchors": ["vmcnet/models/construct.py:get_model_from_config", "vmcnet/models/construct.py:EmbeddedParticleFermiNet", "vmcnet/models/equivariance.py:compute_input_streams", "vmcnet/models/jastrow.py:OneBodyExpDecay"]}
{"id": "C77", "title": "Where the molecule sits does not matter to a job", "statement": "Two jobs with the same options and seed, the ions of the second moved by a vector: either neither starts, or they end in the same way with the same parameters, metric files, evaluation files, sampled local energies, statistics and number and names of checkpoints; only the walkers are moved by that vector. The same holds when both are resumed from checkpoints that differ by the vector. (All energy types and model types except the embedded-particle model, C76; all optimisers, provided that KFAC's third-party step sees the walkers through the wavefunction only.)", "quantifier": "every configuration, molecule, seed, translation vector, number of devices, number of epochs, reloaded checkpoint and content of the log directory", "why_tests_cant": "A statement about two whole runs for all configurations, random draws and translations; in floating point a test sees it up to rounding that grows from epoch to epoch.", "anchors": ["vmcnet/train/runners.py:run_molecule", "vmcnet/physics/core.py:initialize_molecular_pos", "vmcnet/physics/potential.py:create_electron_ion_coulomb_potential", "vmcnet/models/construct.py:get_model_from_config", "vmcnet/mcmc/metropolis.py:make_position_amplitude_gaussian_proposal"]}
{"id": "C78", "title": "From the configuration to the files: what a job writes", "statement": "A job starts exactly if its configuration is accepted (walkers divide over the devices and are not one, known energy type, clipping centre, optimiser, schedule and modes); once started, training raises nothing, and it can be interrupted and resumed as in C65. Training performs one update per epoch. The walkers of the first epoch come from positions around the ions by exactly the configured burning and walking Metropolis steps, those of each later epoch from the previous ones by the walking steps with the current parameters. If NaNs are looked for, the job stops with an error right after the first epoch with a NaN in its unclipped energy, variance or new parameters, and otherwise trains all epochs. Line i of the acceptance file is the mean acceptance probability of the proposals of epoch i (psi without zeros); if amplitudes are recorded, line i of their files is the least and the greatest log|psi| of the walkers with the new parameters. Line i of the unclipped energy and variance files is the mean and variance of (H psi)/psi over the configured number of walkers of epoch i, psi being the configured wavefunction with the parameters of epoch i; line i of the energy and variance files is that of the clipped ones (C29); the gradient handed to the optimiser is twice the covariance of the clipped energies with the parameter derivatives of log|psi|, over the walkers of all devices; the parameters of the next epoch are the optimiser's result; which checkpoint files there are follows from the intervals, the NaN found and the scores (best_checkpoint.npz ends up with the first epoch of least score); checkpoints hold the parameters, optimiser states and walkers of their epoch. Evaluation writes one row of (H psi)/psi per epoch with the final parameters, and the means and variances of these rows; the statistics file is made from all rows; its walkers start from those of training, or around the ions, as configured, and make the configured Metropolis steps.", "quantifier": "every accepted configuration with the standard local energy, with or without clipping, seed, devices, numbers of walkers, epochs and checkpoint intervals, wavefunction parameters, smooth non-zero wavefunction at the walkers", "why_tests_cant": "All configurations, draws and lengths of runs at once; the local energy is a statement about second derivatives at real positions.", "anchors": ["vmcnet/train/runners.py:run_molecule", "vmcnet/train/runners.py:_setup_vmc", "vmcnet/train/runners.py:_burn_and_run_vmc", "vmcnet/train/runners.py:_setup_eval", "vmcnet/train/vmc.py:vmc_loop", "vmcnet/updates/params.py:create_grad_energy_update_param_fn"]}
{"id": "C79", "title": "Every random number of a job is drawn with a key of its own", "statement": "There is a key for every draw a job makes: for the ions each walker's electrons start at, the noise around them, the first parameters, KFAC's first state, the proposals and the decisions of every Metropolis step (burning, training, burning before evaluation, evaluation) on every device, and every parameter update on every device. The keys of different draws are unrelated: neither is derived from the other. And the job is the function of these draws it should be: the walkers, parameters, optimiser states, checkpoints and evaluation samples are those computed from the generator's answers to exactly these keys.", "quantifier": "every configuration, seed, process index, number of devices, number of walkers, steps and epochs, and random number generator", "why_tests_cant": "The number of pairs of draws is unbounded, and reuse of a key shows only as a subtle statistical correlation.", "anchors": ["vmcnet/train/runners.py:run_molecule", "vmcnet/train/runners.py:_make_new_data_for_eval", "vmcnet/physics/core.py:initialize_molecular_pos", "vmcnet/mcmc/metropolis.py:make_metropolis_step", "vmcnet/updates/params.py:create_grad_energy_update_param_fn", "vmcnet/updates/parse_config.py:get_kfac_update_fn_and_state", "vmcnet/utils/distribute.py:make_different_rng_key_on_all_devices"]}
{"id": "C80", "title": "Checkpoints survive the deletion of the arrays they were taken from", "statement": "A compiled update may delete the device buffers of the parameters, optimiser state and key it was given, to reuse their memory, and the checkpoint files are written by a thread that may lag behind the training by any number of epochs. Still, training never touches a deleted array, and every checkpoint file - regular, best (which is kept in memory over many epochs before it is written) and NaN - is written completely, with exactly the contents the parameters, optimiser state, walkers and key had at the start of its epoch. The walkers' arrays themselves are not copied: the guarantee needs updates that do not delete them.", "quantifier": "every walker function and update that deletes at most its old parameters, optimiser state and key, every way of sharing or allocating results, every schedule of the writer thread, every configuration of checkpoints and number of epochs", "why_tests_cant": "Whether a buffer is gone when the thread reads it depends on the schedule, the backend and the number of epochs in between.", "anchors": ["vmcnet/train/vmc.py:vmc_loop", "vmcnet/utils/checkpoint.py:CheckpointWriter", "vmcnet/utils/checkpoint.py:track_and_save_best_checkpoint", "vmcnet/utils/io.py:save_vmc_state"]}
{"id": "C81", "title": "Whether a job starts depends on its configuration alone", "statement": "For a problem with at least two spin species and an electron, whether the configured wavefunction has a value or raises an exception depends only on its section of the configuration and the numbers of electrons - never on the parameters, the seed or where the electrons are. It has one exactly if the electron-ion norms are included, there is a determinant, PAIRWISE_EVEN is used with two species and split determinants, the hidden fermions are given per species, the products readout has two species, the cofactor model has electrons of every spin, the factorized antisymmetrisation has a positive rank, and a two-body Jastrow factor has a two-electron stream. So a job starts exactly if the names in the chosen section are known, these conditions hold, and the walkers, energy, optimiser and evaluation sections are acceptable. In particular the shipped default configuration starts for every molecule with electrons of both spins, every model type and every optimiser (SPRING on one device), on every number of devices that divides its 2000 walkers.", "quantifier": "every configuration, molecule, number of species, number of devices, seed, value of the parameters, and position of the electrons", "why_tests_cant": "The options multiply to far more combinations than can be run, and an exception that needs particular parameters or positions would be met only hours into a job.", "anchors": ["vmcnet/models/construct.py:get_model_from_config", "vmcnet/models/construct.py:FermiNet", "vmcnet/models/construct.py:AntiequivarianceNet", "vmcnet/models/construct.py:FactorizedAntisymmetry", "vmcnet/train/default_config.py:get_default_config", "vmcnet/train/runners.py:run_molecule"]}
{"id": "C82", "title": "A wavefunction with finite parameters is a number, or NaN only where stated", "statement": "For every model section with finite numbers, every molecule at finite positions with at least one electron of every spin (two spin species or more), all finite parameters and all finite electron positions: whenever the configured model returns a value, it is the sign and the logarithm of a real number; only the models that add determinants through their logarithms (FermiNets without a determinant resnet, factorized antisymmetry) may return NaN instead. For a FermiNet without determinant resnet the value is the sign and logarithm of the sum of the determinants of its orbital matrices if one of them is not zero, and NaN if all are zero. Where two electrons of the same spin coincide, the value is exactly zero, but NaN for the models that sum logarithms (and except for the weighted products readout, which is not antisymmetric). With a spin species without electrons a FermiNet without attention and without determinant resnet is NaN everywhere.", "quantifier": "all model sections, spin populations, molecules, parameters and electron positions", "why_tests_cant": "the statement is about all parameters and positions, including the measure-zero sets where determinants vanish or electrons coincide, which sampled tests never hit", "anchors": ["vmcnet/models/construct.py:get_model_from_config", "vmcnet/models/construct.py:FermiNet", "vmcnet/models/core.py:_split_mean", "vmcnet/utils/log_linear_exp.py:log_linear_exp", "vmcnet/models/antisymmetry.py:slogdet_product"]}
{"id": "C83", "title": "A batch of walkers is evaluated walker by walker", "statement": "For positions in an array of any number of batch axes (..., n, d), a FermiNet of any configuration (backflow with or without attention, isotropic or anisotropic envelope, one or several determinants, full determinant or one per spin, no determinant function or the ResNet in any of its three modes) raises exactly if it raises on one walker alone; otherwise sign and logarithm have the batch axes as their shape, and their entries at a walker are the value of that walker alone. So no walker's value depends on the other walkers, on its place in the batch or on the shape of the batch, and exchanging two electrons of the same spin in the whole array negates all signs and keeps all logarithms. The FermiNet that a job builds from its configuration is of this kind.", "quantifier": "all models, parameters, batch shapes, arrays of positions and walkers of the batch", "why_tests_cant": "Tests use one or two batch shapes; an axis counted from the wrong end, a broadcast against the wrong axis or a reshape in the wrong order can agree with the right one on these shapes and mix walkers on others.", "anchors": ["vmcnet/models/construct.py:FermiNet", "vmcnet/models/equivariance.py:FermiNetBackflow", "vmcnet/models/equivariance.py:compute_input_streams", "vmcnet/models/equivariance.py:FermiNetOrbitalLayer", "vmcnet/models/sign_symmetry.py:make_array_list_fn_sign_covariant", "vmcnet/models/antisymmetry.py:slogdet_product", "vmcnet/utils/log_linear_exp.py:log_linear_exp"]}
{"id": "C84", "title": "Logged energies are local energies of a wavefunction that has derivatives", "statement": "The local energy (H psi)/psi needs second derivatives of psi, and the networks contain norms, square roots and safe-diagonal tricks that could have kinks. For every configured model of the six types - with isotropic envelope decay or a nonzero envelope softening for the FermiNets (isotropic for the per-particle determinants, biased orbitals for the cofactor network) -, all finite parameters and two or more spin species with electrons: at all electron positions where no two electrons coincide and none is at an ion (nor, for the embedded-particle FermiNet, at a hidden particle; nor, for a backflow-based Jastrow factor, where a row of its features is zero), the wavefunction is differentiable nearby and twice differentiable along every coordinate. Its absolute value is the exponential of the logarithm the model returns. So whenever the parameters of an epoch are finite and its walkers are such points where psi is not zero, the lines of energy_noclip.txt and variance_noclip.txt, and the rows of local_energies.txt in an evaluation, are the mean, variance and values of (H psi)/psi at the walkers of that epoch, psi the configured wavefunction itself; nothing about psi is assumed. All six model types as shipped qualify.", "quantifier": "all model sections, molecules, spin populations, finite parameters, electron positions without coincidences, and all jobs built from them", "why_tests_cant": "Differentiability is a statement about limits at every point and every parameter; automatic differentiation returns a number at a kink too, so a test that compares derivatives at sampled points cannot see it.", "anchors": ["vmcnet/models/construct.py:get_model_from_config", "vmcnet/models/equivariance.py:FermiNetOrbitalLayer", "vmcnet/models/equivariance.py:compute_input_streams", "vmcnet/models/core.py:compute_ee_norm_with_safe_diag", "vmcnet/models/jastrow.py:BackflowJastrow", "vmcnet/physics/kinetic.py:create_laplacian_kinetic_energy", "vmcnet/train/runners.py:run_molecule"]}
{"id": "C85", "title": "The statistics file of an evaluation is the error analysis of the local energies of its walkers", "statement": "A completed job whose evaluation records local energies (standard local energy, two or more walkers, two or more epochs, finite parameters, walkers at points where the wavefunction is smooth and not zero, no walker with a constant energy) writes one statistics file. With x(t,k) the value of (H psi)/psi at walker k in evaluation epoch t, it holds the mean of all x(t,k), the variance estimated from the chains, the integrated autocorrelation time of their combined autocorrelation curve, and the error bar sqrt(time * variance / number of samples). Column k is the same Metropolis chain at every epoch. The standalone vmc-statistics command on the recorded file of local energies gives the same four numbers.", "quantifier": "all job configurations, models, parameters, seeds, numbers of devices, walkers and epochs", "why_tests_cant": "A test sees one file from one run; whether rows and columns keep their meaning (epochs and walkers) through recording, saving, loading and the error analysis must hold for all sizes, and a transposition is invisible in the mean.", "anchors": ["vmcnet/train/runners.py:_compute_and_save_energy_statistics", "vmcnet/train/runners.py:vmc_statistics", "vmcnet/train/runners.py:run_molecule", "vmcnet/mcmc/statistics.py:get_stats_summary"]}
{"id": "C86", "title": "Log-domain sums are safe in floating-point arithmetic", "statement": "In machine arithmetic (IEEE-754 binary numbers of any format with at least two digits and enough range: half, bfloat16, single, double), for any exp and log accurate to given bounds and for any order in which the compiler adds: the sum of up to 2^precision signed logs of which at least one is a number returns a sign in {-1, 0, 1} and a log that is a number or -inf, never NaN or +inf; the log is -inf exactly if the sign is 0. The sign is that of the exact sum whenever the exact sum exceeds n(u+e) + u n^2 times the largest term (u the unit roundoff, e the error of exp). If all signs agree the result has that sign, its log is at least the largest log and within an explicit bound of the log of the exact sum: no overflow and no underflow at any magnitude. The sum of finite numbers, not all zero, taken through signed logs never overflows, even when the plain sum does. The FermiNet's sum over determinants of products over spins is a sign and a log as soon as one determinant has no zero factor, and NaN if every one has.", "quantifier": "all floating-point formats with room, all accurate enough exp and log functions, all summation orders, all numbers of terms up to 2^precision, all signs and logs", "why_tests_cant": "Overflow, underflow and cancellation depend on all magnitudes and on the order of additions chosen by the compiler; a test runs one backend at a few magnitudes.", "anchors": ["vmcnet/utils/log_linear_exp.py:log_linear_exp", "vmcnet/utils/slog_helpers.py:slog_sum_over_axis", "vmcnet/utils/slog_helpers.py:slog_multiply", "vmcnet/utils/slog_helpers.py:array_to_slog", "vmcnet/models/antisymmetry.py:slogdet_product", "vmcnet/models/construct.py:FermiNet"]}
{"id": "C87", "title": "KFAC curvature blocks hold second moments over every application of a layer", "statement": "For a dense layer applied at many places (walkers, particles, ...), with or without bias, after any number of curvature updates the two Kronecker factors are the weighted averages, over the batches seen, of the mean outer product of the layer's inputs (with a 1 appended for the bias) and of its output tangents, taken over all places of the batch; a batch's weight is its new weight times the old weights of all later updates. With non-negative weights both factors are symmetric and positive semidefinite; reordering walkers or particles changes neither; a batch whose first axis is not the batch size raises; batch size times the block's scale is the number of places. For the blocked dense layer, multiplying by power 1 is the block-diagonal Kronecker product of the factors plus damping times the vector, a symmetric map whose quadratic form is at least damping times the squared length; power -1 with a cache holding inverses of the factors undoes it; exact powers, uncached powers and powers other than 1 and the cached -1 raise.", "quantifier": "all layer sizes, numbers of axes, batches, update histories, averaging weights, vectors and requested powers", "why_tests_cant": "A wrong reshape or a swapped axis gives a matrix of the right shape that still trains; the averages depend on whole histories of updates.", "anchors": ["vmcnet/utils/curvature_tags_and_blocks.py:RepeatedDenseBlock", "vmcnet/utils/curvature_tags_and_blocks.py:QmcBlockedDense"]}
{"id": "C88", "title": "Metropolis sampling is safe in floating-point arithmetic", "statement": "In machine arithmetic (IEEE-754 binary numbers of any format), for any exp accurate to a given bound: from a log amplitude that is a number to one that is a number or -inf, the acceptance probability is a number in [0, 1] within unit roundoff plus the error of exp of min(1, |psi'|^2/|psi|^2), exactly 1 if the amplitude does not decrease and exactly 0 if the new amplitude is zero. After any number of steps of any number of walkers on any number of devices with any random numbers, a walker that started where log|psi| is a number is where log|psi| is a number and carries exactly that number, provided no position has log|psi| = +inf; positions with NaN or zero amplitude are never entered. A walker with amplitude NaN or +inf never moves until the parameters change. The step width never becomes zero, negative or NaN if the shrinking factor exceeds 1/2; it changes only at every nmoves-th step, from an average acceptance that is a number in [0, 1], and by exactly the growing (shrinking) factor, rounded, when all (no) moves were accepted. With plain amplitudes the probability is in [0, 1] unless a square overflows, but need not be the ratio: squares that underflow to zero accept every move.", "quantifier": "all floating-point formats, accurate enough exp functions, wavefunctions, numbers of walkers, devices and steps, random numbers, initial widths and adjustment rules", "why_tests_cant": "NaN, infinities and underflow appear at rare positions after long runs; a test follows a few walkers for a few steps.", "anchors": ["vmcnet/mcmc/metropolis.py:metropolis_symmetric_acceptance", "vmcnet/mcmc/metropolis.py:make_metropolis_step", "vmcnet/mcmc/metropolis.py:walk_data", "vmcnet/mcmc/position_amplitude_core.py:make_position_amplitude_update", "vmcnet/mcmc/dynamic_width_position_amplitude.py:make_threshold_adjust_std_move", "vmcnet/mcmc/dynamic_width_position_amplitude.py:make_update_move_metadata_fn"]}
{"id": "C89", "title": "Energy statistics and clipping are safe in floating-point arithmetic", "statement": "In machine arithmetic (IEEE-754 binary numbers of any format), in whatever order the compiler adds: for local energies at most 2^k in size, at most n on each of d devices, the mean energy is a number at most 2^k in size within u(n+d+2)2^k of the exact mean (u the unit roundoff), and the variance is a number, not negative, within an explicit bound of the exact sample variance (which, for equal shares without NaN, is that of the whole sample). NaN-safe means do the same over the walkers whose energy is not NaN, and agree bit for bit with the plain ones if there is no NaN. For all inputs, the variance is never negative. The plain statistics show every energy that is not a number: the mean is then not a number (NaN for NaN) and the variance is NaN. Clipping with a positive threshold about a center that is a number gives, for energies of any size, a width that is not NaN and not negative; every energy becomes a number between itself and the center, within the rounded bounds, and unchanged if it was within them; NaN stays NaN. The width is the threshold times the mean absolute deviation up to an explicit error. So in an update the clipped energies stay in range, the reported mean and variance are accurate for them, and each centered energy is accurate to u 2^(k+1). One NaN energy clipped about the mean makes every clipped energy of every device NaN, with NaN-safe means too.", "quantifier": "all floating-point formats, summation orders, numbers of devices and walkers, local energies, thresholds, centers and NaN positions", "why_tests_cant": "Cancellation in a variance, overflow in a square and NaN propagation depend on all magnitudes and on the order of additions; a test runs a few energies on one backend.", "anchors": ["vmcnet/physics/core.py:get_statistics_from_local_energy", "vmcnet/physics/core.py:get_clipped_energies_and_aux_data", "vmcnet/train/runners.py:total_variation_clipping_fn", "vmcnet/utils/distribute.py:mean_all_local_devices", "vmcnet/utils/distribute.py:nanmean_all_local_devices"]}
{"id": "C90", "title": "The best checkpoint is best up to rounding, and when it is not", "statement": "In machine arithmetic (IEEE-754 binary numbers of any format): after T values of size at most 2^k the running average that checkpointing uses is a number within 16 T u 2^k of the mean of the last nhistory_max - 1 values. As long as every epoch's metric is a number, the best checkpoint left at the end is that of the earliest epoch with the smallest computed metric, however often it is written. If the energies are at most 2^k and the variances between 16 T u 4^k and 4^k in size, its exact error-adjusted average (mean energy of the window plus standard error) exceeds that of no other epoch by more than 2 delta, delta = 2^k((16T+6)u + sqrt((16T+2)u)). Neither condition can be dropped: the average never forgets rounding errors of values that have left the window (single precision, values 1, 2^24, 1/4, 1/4, 1/4, ...: the window holds only 1/4 and the average is -1/2 for ever), and then the square root of a negative average of positive variances is NaN, after which no epoch, however low its energy, replaces the best checkpoint any more.", "quantifier": "all floating-point formats, window lengths, numbers of epochs and walkers, energies, variances, variance scales and saving intervals", "why_tests_cant": "Rounding errors of a running average build up over a whole run and depend on every value seen; a test compares an average after a few small values, where every operation is exact.", "anchors": ["vmcnet/utils/checkpoint.py:RunningMetric", "vmcnet/utils/checkpoint.py:get_checkpoint_metric", "vmcnet/utils/checkpoint.py:track_and_save_best_checkpoint", "vmcnet/utils/checkpoint.py:save_metrics_and_handle_checkpoints", "vmcnet/utils/checkpoint.py:finish_checkpointing"]}
{"id": "C91", "title": "Coulomb energies are accurate in floating-point arithmetic, and when they are not numbers", "statement": "In machine arithmetic (IEEE-754 binary numbers of any format, sums in any order the compiler chooses, any dimension, any softening): the electron-ion attraction, the electron-electron repulsion and the ion-ion repulsion are numbers whose relative error is at most 2 p u, p being the number of terms plus the dimension plus 8, as long as squared distances lie between (dimension + 1) 2^(5-emax) and 2^(emax-3) and charges are at least 1; the terms of a particle with itself, infinite in the arrays, do not count. The local energy is within 2 (p+4) u (|kinetic| + |potentials|) of the exact sum. Without softening, an electron exactly on an ion or on another electron gives an energy that is not a number, whatever the kinetic energy; and in single precision an electron 2^-76 away from a proton already gets the energy -infinity.", "quantifier": "all floating-point formats, numbers of electrons and ions, dimensions, positions, charges, softening terms, orders of summation", "why_tests_cant": "Relative accuracy has to hold for every configuration of the particles and every order in which a compiler adds the terms; a test compares a few configurations on one backend with a tolerance.", "anchors": ["vmcnet/physics/potential.py:compute_soft_norm", "vmcnet/physics/potential.py:create_electron_ion_coulomb_potential", "vmcnet/physics/potential.py:create_electron_electron_coulomb_potential", "vmcnet/physics/potential.py:create_ion_ion_coulomb_potential", "vmcnet/physics/core.py:combine_local_energy_terms"]}
{"id": "C92", "title": "Norm constraints and parameter updates in floating-point arithmetic", "statement": "In machine arithmetic (IEEE-754 binary numbers of any format, sums in any order the compiler chooses, any number of devices): SPRING's norm constraint maps numbers to numbers, keeps their signs and never enlarges an entry, however large the entries are. If the squared lengths do not overflow and the constraint is not tiny, every entry is the exactly rescaled one up to a relative error 2(2n+8)u (n bounding the number of entries plus leaves, and of devices) and underflow, the mean squared length exceeds the constraint at most by the factor 1+6(2n+8)u, and an update clearly below the constraint is unchanged bit for bit. One entry whose square overflows, on any device, turns every number in the update into zero on all devices (infinite entries become NaN); one NaN makes everything NaN. A step adds the update to each parameter with relative error u, and exactly does nothing to a parameter when the update is below u/2 of it - so a non-zero direction may leave all parameters where they are. The constraint of stochastic reconfiguration is as safe if gradient and preconditioned gradient agree in sign entry by entry, but in general rounding alone can make its inner product negative and the whole update NaN although the exact inner product is positive.", "quantifier": "all floating-point formats, shapes of parameters, numbers of devices, updates, constraints, learning rates, orders of summation", "why_tests_cant": "Overflow of a squared norm, lost updates and negative rounded inner products appear for particular magnitudes and summation orders; a test checks one update of moderate size with a tolerance.", "anchors": ["vmcnet/updates/spring.py:constrain_norm", "vmcnet/updates/sr.py:constrain_norm", "vmcnet/updates/parse_config.py:get_spring_update_fn_and_state", "vmcnet/utils/pytree_helpers.py:tree_inner_product", "vmcnet/utils/pytree_helpers.py:multiply_tree_by_scalar"]}
{"id": "C93", "title": "Learning-rate schedules, momentum and Adam in floating-point arithmetic", "statement": "In machine arithmetic (IEEE-754 binary numbers of any format), over training runs of any length: the inverse-time learning rate is always a number between 0 and the configured one, equals it in epoch 0, never increases, and is lr/(1+decay t) up to the relative error 8u unless something overflows or underflows. Each epoch moves a parameter by minus the epoch's learning rate times the optimiser's direction, up to rounding errors relative to parameter and change. With momentum at most 1-2^-j and gradients at most 2^k, the direction of SGD stays a number of size at most 2^(k+j) and equals the exponentially weighted sum of all past gradients (with Nesterov's correction if configured) up to an error that does not grow with the number of epochs. Adam's moments are numbers, the second never negative, and equal the weighted sums of gradients and of squared gradients up to errors that do not grow; its direction is a number of size at most 2^(k+2j+e) for eps at least 2^-e, and equals the bias-corrected quotient up to the relative error 16u. But one gradient entry whose square overflows makes the second moment infinite for good: that parameter never changes again, whatever gradients follow. And eps = eps_root = 0 gives NaN for a vanishing gradient.", "quantifier": "all floating-point formats, learning rates, decay rates, momenta, Adam constants, run lengths and histories of gradients in the stated range", "why_tests_cant": "Rounding errors accumulate over arbitrarily long histories, and the frozen state is reached only by gradients near the square root of the overflow threshold; a test runs a few steps with moderate gradients.", "anchors": ["vmcnet/updates/parse_config.py:_get_learning_rate_schedule", "vmcnet/updates/parse_config.py:_get_adam_optax_optimizer", "vmcnet/updates/parse_config.py:_get_sgd_optax_optimizer", "vmcnet/updates/parse_config.py:_get_optax_update_fn_and_state"]}
{"id": "C94", "title": "Linear layers in the log domain in floating-point arithmetic", "statement": "In machine arithmetic (IEEE-754 binary numbers of any format, sums in any order the compiler chooses): a log-domain dense layer whose weights are numbers of size at most 2^q, applied to any number of signs and logs, returns one sign and one log for every output feature, the log being -inf exactly for the sign 0 and never NaN, provided one input (or the bias's constant 1) is not zero. Measured in units of the largest input e^c, the sum is exact up to 2^q(n(3u+eps)+u n^2): an output that exceeds this has the right sign, and an output not smaller than the largest input has an accurate log, although the inputs and the output may lie far outside the range of the format. With a bias the layer never returns NaN, even for inputs that are all zero; without a bias such inputs give NaN in every feature, although the output is exactly 0. And an input hidden behind a larger one that has weight 0 is lost: the output is then log -inf although the exact output is not zero.", "quantifier": "all floating-point formats, numbers of inputs and features, kernels within range, signed logs, orders of summation, implementations of exp and log of given accuracy", "why_tests_cant": "Cancellation, underflow behind the maximum and the -inf minus -inf of zero inputs depend on the magnitudes of inputs and weights together; a test compares a few moderate inputs with the exponentials.", "anchors": ["vmcnet/models/core.py:LogDomainDense", "vmcnet/utils/log_linear_exp.py:log_linear_exp"]}
{"id": "C95", "title": "Sign-symmetrised functions are odd and even in floating-point arithmetic", "statement": "In machine arithmetic (IEEE-754 binary numbers of any format), for the symmetrisation of any function over the signs of its n inputs: if the 2^n terms are added by halves, negating all entries of one input negates the sign-covariant result and keeps the sign-invariant one exactly, without any rounding error and whatever the function returns, infinities and NaN included (only the sign of a zero may differ). With one input (a full determinant) that is so for every order of the additions. In general, for values of the function of size at most 2^q and any order of the additions, the result is the alternating (plain) sum of the 2^n values up to u 4^n 2^q, so it is odd (even) up to twice that. But it need not be exactly odd: with two inputs added from left to right, a function that does not depend on its second input is symmetrised to a nonzero number, so a wavefunction that is exactly zero is not zero on the machine and does not change sign.", "quantifier": "all floating-point formats, functions, numbers and sizes of inputs, entries, orders of summation", "why_tests_cant": "Whether rounding breaks the symmetry depends on the order in which the compiler adds and on the magnitudes of all 2^n values; a test compares a few values with a tolerance.", "anchors": ["vmcnet/models/sign_symmetry.py:make_array_list_fn_sign_covariant", "vmcnet/models/sign_symmetry.py:make_array_list_fn_sign_invariant", "vmcnet/models/sign_symmetry.py:apply_sign_symmetry_to_fn", "vmcnet/models/construct.py:FermiNet"]}
{"id": "C96", "title": "Orbitals with exponential envelopes in floating-point arithmetic: never NaN, accurate, and zero far from the ions", "statement": "In machine arithmetic (IEEE-754 binary numbers of any format, rounding to nearest even, any order of additions), for isotropic decay and the default softening 0: whatever the displacements from the ions, decay rates, ion weights and linear parts are, as long as they are numbers, no orbital is NaN, even if scaling or squaring a displacement overflows; and it is a number if linear part times number of ions times largest weight is in range. If scaled coordinates and squared distances are zero or in range, every orbital is within |a| 2^q (n ((2D+23) u + eps) + u n^2) (plus half the smallest normal number's spacing) of a sum_I w_I exp(-|k| |r - R_I|), for n ions in D dimensions and weights of size at most 2^q. But 'an orbital is zero only where its exact value is' is false: with a correctly rounded exponential, all orbitals of an electron whose scaled distance from every ion is at least 3 (emax + prec) (456 in single precision) are zero, whatever weights and linear parts are.", "quantifier": "all floating-point formats, numbers of ions, orbitals and dimensions, displacements, decay rates, weights, linear parts, orders of summation", "why_tests_cant": "Overflow and underflow happen only for particular magnitudes, and the error bound is over all inputs and orders of addition; tests compare a few walkers near the ions with a tolerance.", "anchors": ["vmcnet/models/equivariance.py:_compute_exponential_envelopes_on_leaf", "vmcnet/models/equivariance.py:FermiNetOrbitalLayer", "vmcnet/models/jastrow.py:_isotropy_on_leaf"]}
{"id": "C97", "title": "Decaying Jastrow factors in floating-point arithmetic", "statement": "In machine arithmetic (IEEE-754 binary numbers of any format, rounding to nearest even, any order of additions): for all decay rates and displacements that are numbers, of any size, the one-body log-Jastrow is -inf or a number that is not positive and the Jastrow factor is a number between 0 and 1, never NaN; the same holds for the backflow Jastrow for every backflow output without NaN (infinities included), if there is at least one electron; without electrons it is NaN. If scaled displacements (rows) are zero or in range, the log-Jastrow equals minus |rate| times the sum of all N electron-ion distances (minus the mean length of the N rows) up to the relative error 2 (D+8+N) u (2 (D+7+N) u), and the Jastrow factor equals its exponential up to the same absolute error plus the one of the exponential.", "quantifier": "all floating-point formats, decay rates, displacements, backflow outputs, numbers of electrons, ions and dimensions, orders of summation", "why_tests_cant": "Overflow in a square happens for particular magnitudes only, and a relative error bound quantifies over all inputs and orders of addition; tests compare a few values with a tolerance.", "anchors": ["vmcnet/models/jastrow.py:OneBodyExpDecay", "vmcnet/models/jastrow.py:BackflowJastrow", "vmcnet/models/jastrow.py:_isotropy_on_leaf"]}
