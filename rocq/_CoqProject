-Q theories Verif
theories/Det.v
theories/E_job.v
theories/E_run.v
theories/E_vmc.v
theories/M_antisym.v
theories/M_batch.v
theories/M_buffers.v
theories/M_config.v
theories/M_construct.v
theories/M_dispatch.v
theories/M_distribute.v
theories/M_energy.v
theories/M_fcheckpoint.v
theories/M_fdense.v
theories/M_fenergy.v
theories/M_files.v
theories/M_fjastrow.v
theories/M_float.v
theories/M_foptax.v
theories/M_forbital.v
theories/M_fpotential.v
theories/M_fsign.v
theories/M_fupdate.v
theories/M_fwalk.v
theories/M_io.v
theories/M_job.v
theories/M_keys.v
theories/M_kfac.v
theories/M_logdir.v
theories/M_mcmc.v
theories/M_models.v
theories/M_optax.v
theories/M_optim.v
theories/M_physics.v
theories/M_run.v
theories/M_setup.v
theories/M_slog.v
theories/M_start.v
theories/M_stats.v
theories/M_statsfile.v
theories/M_tensor.v
theories/M_vmc.v
theories/M_writer.v
theories/P_accept.v
theories/P_antieq.v
theories/P_antisym.v
theories/P_balance.v
theories/P_batch.v
theories/P_batch2.v
theories/P_batch3.v
theories/P_batch4.v
theories/P_batch5.v
theories/P_batch6.v
theories/P_batch7.v
theories/P_buffers.v
theories/P_config.v
theories/P_construct.v
theories/P_construct2.v
theories/P_construct3.v
theories/P_construct4.v
theories/P_construct5.v
theories/P_crash.v
theories/P_dispatch.v
theories/P_distribute.v
theories/P_energy.v
theories/P_equiv.v
theories/P_equiv2.v
theories/P_fcheckpoint.v
theories/P_fcheckpoint2.v
theories/P_fcheckpoint3.v
theories/P_fdense.v
theories/P_features.v
theories/P_fenergy.v
theories/P_fenergy2.v
theories/P_fenergy3.v
theories/P_fenergy4.v
theories/P_fft.v
theories/P_files.v
theories/P_finite.v
theories/P_finite2.v
theories/P_finite3.v
theories/P_fjastrow.v
theories/P_flags.v
theories/P_flips.v
theories/P_float.v
theories/P_float2.v
theories/P_float3.v
theories/P_float4.v
theories/P_foptax.v
theories/P_foptax2.v
theories/P_foptax3.v
theories/P_forbital.v
theories/P_forbital2.v
theories/P_fpotential.v
theories/P_fpotential2.v
theories/P_fsign.v
theories/P_fsign2.v
theories/P_fubini.v
theories/P_fupdate.v
theories/P_fupdate2.v
theories/P_fupdate3.v
theories/P_fupdate4.v
theories/P_fupdate5.v
theories/P_fwalk.v
theories/P_fwalk2.v
theories/P_grad.v
theories/P_hermite.v
theories/P_ibp.v
theories/P_inv.v
theories/P_io.v
theories/P_jastrow.v
theories/P_job.v
theories/P_jobkeys.v
theories/P_jobrun.v
theories/P_keys.v
theories/P_kfac.v
theories/P_kfac2.v
theories/P_kinetic.v
theories/P_leibniz.v
theories/P_lext.v
theories/P_logdir.v
theories/P_logdir2.v
theories/P_loopmap.v
theories/P_mcmc.v
theories/P_models.v
theories/P_movewalk.v
theories/P_nan.v
theories/P_optax.v
theories/P_optim1.v
theories/P_optim2.v
theories/P_optim3.v
theories/P_orders.v
theories/P_parity.v
theories/P_potential.v
theories/P_run.v
theories/P_running.v
theories/P_sample.v
theories/P_setup.v
theories/P_setup2.v
theories/P_sgn.v
theories/P_shift.v
theories/P_signsym.v
theories/P_slog.v
theories/P_smooth.v
theories/P_smooth2.v
theories/P_smooth3.v
theories/P_smooth4.v
theories/P_smooth5.v
theories/P_smooth6.v
theories/P_smooth7.v
theories/P_smooth8.v
theories/P_spin.v
theories/P_split.v
theories/P_start.v
theories/P_stats.v
theories/P_tab.v
theories/P_total.v
theories/P_unbiased.v
theories/P_vmc.v
theories/P_vmc2.v
theories/P_vmc3.v
theories/P_walkers.v
theories/P_width.v
theories/P_writer.v
theories/P_xsum.v
theories/Rsum.v
theories/S_antisym.v
theories/S_batch.v
theories/S_buffers.v
theories/S_construct.v
theories/S_density.v
theories/S_dispatch.v
theories/S_energy.v
theories/S_fcheckpoint.v
theories/S_fdense.v
theories/S_features.v
theories/S_fenergy.v
theories/S_files.v
theories/S_finite.v
theories/S_fjastrow.v
theories/S_float.v
theories/S_foptax.v
theories/S_forbital.v
theories/S_fpotential.v
theories/S_fsign.v
theories/S_fupdate.v
theories/S_fwalk.v
theories/S_io.v
theories/S_job.v
theories/S_jobfiles.v
theories/S_jobkeys.v
theories/S_kfac.v
theories/S_logdir.v
theories/S_mcmc.v
theories/S_models.v
theories/S_optax.v
theories/S_optim.v
theories/S_perm.v
theories/S_physics.v
theories/S_run.v
theories/S_setup.v
theories/S_shift.v
theories/S_smooth.v
theories/S_start.v
theories/S_stats.v
theories/S_total.v
theories/S_vmc.v
theories/T_amplitude.v
theories/T_antisym.v
theories/T_batch.v
theories/T_buffers.v
theories/T_construct.v
theories/T_density.v
theories/T_dispatch.v
theories/T_energy.v
theories/T_fcheckpoint.v
theories/T_fdense.v
theories/T_features.v
theories/T_fenergy.v
theories/T_finite.v
theories/T_fjastrow.v
theories/T_float.v
theories/T_foptax.v
theories/T_forbital.v
theories/T_fpotential.v
theories/T_fsign.v
theories/T_fupdate.v
theories/T_fwalk.v
theories/T_io.v
theories/T_job.v
theories/T_jobfiles.v
theories/T_jobkeys.v
theories/T_kfac.v
theories/T_logdir.v
theories/T_mcmc.v
theories/T_models.v
theories/T_optax.v
theories/T_optim.v
theories/T_perion.v
theories/T_physics.v
theories/T_run.v
theories/T_setup.v
theories/T_shift.v
theories/T_smooth.v
theories/T_start.v
theories/T_stats.v
theories/T_statsfile.v
theories/T_total.v
theories/T_vmc.v
theories/T_writer.v
theories/XReal.v
