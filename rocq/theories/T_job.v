(** * Whole jobs, from the configuration to the files: C77, C78 *)
From Coq Require Import String Reals List Bool Arith Lia Lra Permutation.
From Coquelicot Require Import Coquelicot.
From Verif Require Import XReal Rsum M_io M_vmc M_files M_mcmc M_distribute M_energy M_physics M_setup M_models M_construct M_dispatch M_optim M_optax M_run M_start M_job
  S_models S_dispatch S_mcmc S_perm S_vmc S_files S_optim S_run S_start S_optax S_energy S_physics S_setup S_job P_loopmap P_job P_accept P_jobrun E_job T_dispatch T_optax T_start T_run.
Import ListNotations.
Local Open Scope R_scope.
Local Open Scope string_scope.

Section Jobs.
  (** Parameters, optimiser states, keys and statistics files are arbitrary; so are the parameter arrays of the model, initialisation, derivatives and the
      optimisers' formulas.  The random number generators satisfy their contracts, and there is one key per device. *)
  Context {P1 S1 K J : Type}.
  Variables (g : prng K) (choice : choice_fn K) (perm_of : K -> nat -> nat) (split_n : K -> nat -> list K) (device_keys : K -> list K) (ndev : nat).
  Variables (theta : P1 -> model_params) (init_params : K -> list nat -> P1).
  Variables (grad_p : (P1 -> R) -> P1 -> nat -> R) (grad_px : (P1 -> xr) -> P1 -> nat -> xr).
  Variables (opt_init : optimiser -> P1 -> S1)
            (opt_apply : optimiser -> (nat -> xr) -> P1 -> S1 -> list (list (nat -> R)) -> list (list xr) -> P1 * S1).
  Variable kfac : kfac_optimizer P1 S1 K.
  Variables (has_nan : P1 -> bool) (param_l1_norm : P1 -> xr) (summary : list (list xr) -> J).
  Notation build := (build_job g choice perm_of split_n device_keys ndev theta init_params grad_p grad_px opt_init opt_apply kfac has_nan param_l1_norm summary).
  Hypothesis Hg : good_prng g.
  Hypothesis Hc : good_choice choice.

  (** ** C77 *)
  (** Two jobs with the same options and the same seed, the ions of the second one moved by v: either neither starts, or the second one ends like the first, with
      the same parameters, metric files, evaluation files, samples, statistics and checkpoints, only that the walkers in its checkpoints are moved by v; also when
      both are resumed from checkpoints (and directories) that differ by v.  KFAC's third-party step, if chosen, is assumed not to see the translation: it is to read the walkers through the wavefunction only. *)
  Definition kfac_ignores (v : nat -> R) (c : job_config) : Prop := oc_type (jc_optimizer c) = "kfac" -> forall o,
    (forall p ks xs, kf_init kfac o p ks (map (map (moved_walker (space_dim c) v)) xs) = kf_init kfac o p ks xs) /\
    forall gr p s ks xs, kf_step kfac o gr p s ks (map (map (moved_walker (space_dim c) v)) xs) = kf_step kfac o gr p s ks xs.
  Theorem C77_translation : forall (c : job_config) (v : nat -> R) (key : K), kfac_ignores v c ->
    (forall k, renumbering (electron_count c) (perm_of k)) -> ms_type (jc_model c) <> "embedded_particle_ferminet" -> well_formed_ions c -> (0 < wc_nchains (jc_walk c))%nat ->
    match build c key, build (moved_config v c) key with
    | Some j, Some j' => forall rl l, (forall r, rl = Some r -> well_shaped (electron_count c) (space_dim c) (c_data (r_ckpt r))) ->
        run_molecule j' (option_map (on_reload (moved_walkers (space_dim c) v)) rl) (on_files (moved_walkers (space_dim c) v) l) = on_outcome (moved_walkers (space_dim c) v) (run_molecule j rl l)
    | None, None => True
    | _, _ => False
    end.
  Proof.
    intros c v key Hkf Hp Ht Hw Hn.
    pose proof (jobs_moved g choice perm_of split_n device_keys ndev theta init_params grad_p grad_px opt_init opt_apply kfac has_nan param_l1_norm summary c v Hg Hc Hp Ht Hw Hkf key Hn) as H.
    destruct (build c key) as [j|], (build (moved_config v c) key) as [j'|]; try exact H.
    intros rl l Hr. refine (run_map _ _ j j' H rl l _). destruct rl as [r|]; [|exact Logic.I]. apply (Hr r). reflexivity.
  Qed.

  (** A fresh job: the same metric files, evaluation files, samples and statistics. *)
  Corollary C77_fresh_job : forall (c : job_config) (v : nat -> R) (key : K) j j', kfac_ignores v c ->
    (forall k, renumbering (electron_count c) (perm_of k)) -> ms_type (jc_model c) <> "embedded_particle_ferminet" -> well_formed_ions c -> (0 < wc_nchains (jc_walk c))%nat ->
    build c key = Some j -> build (moved_config v c) key = Some j' ->
    let l := files_of (run_molecule j None empty_logfiles) in let l' := files_of (run_molecule j' None empty_logfiles) in
    lf_train l' = lf_train l /\ lf_eval l' = lf_eval l /\ lf_rows l' = lf_rows l /\ lf_stats l' = lf_stats l /\
    same_result (fun _ => True) (run_molecule j None empty_logfiles) (run_molecule j' None empty_logfiles).
  Proof.
    intros c v key j j' Hkf Hp Ht Hw Hn E E'. pose proof (C77_translation c v key Hkf Hp Ht Hw Hn) as H. rewrite E, E' in H. specialize (H None empty_logfiles ltac:(discriminate)). cbn [option_map] in H.
    change (on_files (moved_walkers (space_dim c) v) empty_logfiles) with (@empty_logfiles P1 (list (padata move_metadata)) S1 (list K) J) in H. cbv zeta. rewrite H.
    destruct (run_molecule j None empty_logfiles) as [l|l|p l]; cbn; unfold same_files; cbn; auto 20.
  Qed.

  (** ** C78 *)
  Hypothesis Hdk : forall k, length (device_keys k) = ndev.
  Hypothesis Hnd : (0 < ndev)%nat.

  (** Which jobs start: exactly those whose configuration is accepted, whatever the seed. *)
  Theorem C78_accepted : forall c key, well_formed_ions c -> (0 < wc_nchains (jc_walk c))%nat -> model_evaluates c ->
    (exists j, build c key = Some j) <-> accepted_config ndev c.
  Proof. intros c key Hw Hn Hm. apply built_iff; assumption. Qed.

  (** A job that starts never fails with an exception while it trains: it ends, or it finds NaNs and was told to look for them. *)
  Theorem C78_training_never_fails : forall c key j, well_formed_ions c -> (0 < wc_nchains (jc_walk c))%nat -> build c key = Some j ->
    jc_logdir c <> None -> jc_checkpoint_every c <> Some O -> jc_best_checkpoint_every c <> Some O ->
    forall rl, exists p o d k nans cks ms, train j rl = Finished p o d k nans cks ms /\ (jc_check_for_nans c = false -> nans = false).
  Proof.
    intros c key j Hw Hn Hb HL HE HB rl.
    destruct (built_ok g choice perm_of split_n device_keys ndev theta init_params grad_p grad_px opt_init opt_apply kfac has_nan param_l1_norm summary c key j Hg Hc Hdk Hnd Hw Hn Hb HL HE HB) as ((Hv & Hl & _ & Hmc & _) & _).
    destruct (fields g choice perm_of split_n device_keys ndev theta init_params grad_p grad_px opt_init opt_apply kfac has_nan param_l1_norm summary c key j Hg Hc Hdk Hnd Hw Hn Hb) as (p0 & data & keys & o' & s0 & keys0 & _ & _ & _ & _ & _ & _ & _ & _ & _ & EJ).
    destruct (logdir (j_cfg j)) as [ld|] eqn:El; [|congruence]. unfold train. destruct (start_state j rl) as [st [[[p s] d] k]].
    destruct (if skip_burn rl then (d, k) else j_burn j p d k) as [d1 k1].
    destruct (P_vmc2.run_description _ _ _ _ (j_walk j) (j_update j) (j_has_nan j) (j_cfg j) ld st (j_nepochs j) p s d1 k1 Hv Hmc El) as (r & b & ck & ms & p' & o & d' & k' & HR & _ & E & _).
    exists p', o, d', k', b, ck, ms. split; [exact E|]. intros Hnan. assert (Enan : check_for_nans (j_cfg j) = false) by (rewrite EJ; exact Hnan). rewrite Enan in HR.
    destruct HR as [(-> & _)|(_ & i & _ & _ & Z & _)]; [reflexivity|discriminate].
  Qed.

  Lemma no_nans : forall c key j, well_formed_ions c -> (0 < wc_nchains (jc_walk c))%nat -> build c key = Some j ->
    jc_logdir c <> None -> jc_checkpoint_every c <> Some O -> jc_best_checkpoint_every c <> Some O -> jc_check_for_nans c = false ->
    forall rl f l, run_molecule j rl f <> NansDetected l.
  Proof.
    intros c key j Hw Hn Hb HL HE HB HN rl f l. destruct (C78_training_never_fails c key j Hw Hn Hb HL HE HB rl) as (p & o & d & k & nans & cks & ms & E & Z). specialize (Z HN). subst nans.
    unfold run_molecule. rewrite E. unfold evaluate. destruct (eval_start j p d k) as [d1 k1], (j_eval_burn j p d1 k1) as [d2 k2].
    match goal with |- match ?v with _ => _ end <> _ => destruct v end; [|discriminate]. match goal with |- (if ?b then _ else _) <> _ => destruct b end; [|discriminate].
    match goal with |- match ?v with _ => _ end <> _ => destruct v end; discriminate.
  Qed.

  (** The jobs of C65: interrupted at any point after a checkpoint and resumed with the default reload options, a job that was started from its configuration
      ends like the uninterrupted one. *)
  Theorem C78_resumed_job : forall c key j, well_formed_ions c -> (0 < wc_nchains (jc_walk c))%nat -> build c key = Some j ->
    jc_logdir c <> None -> jc_checkpoint_every c <> Some O -> jc_best_checkpoint_every c <> Some O ->
    forall ld' p o d k nans cks ms w ck (crashed : logfiles P1 (list (padata move_metadata)) S1 (list K) J) (same : bool),
    train j None = Finished p o d k nans cks ms -> In w cks -> process_for_saving (snd w) = Some ck -> (0 < c_epoch ck)%nat ->
    let uninterrupted := run_molecule j None empty_logfiles in
    let names name := contains "git_hash" (name ++ ".txt")%string = false /\ (forall m, In m ms -> dget (snd m) name <> None) in
    NoDup (map fst (lf_train crashed)) ->
    (same = true -> lf_eval crashed = [] /\ lf_rows crashed = [] /\ lf_stats crashed = []) ->
    (forall name, names name -> exists n, (c_epoch ck <= n)%nat /\
       lines_of (lf_train crashed) name = firstn n (lines_of (lf_train (files_of uninterrupted)) name)) ->
    let start := if same then crashed else empty_logfiles in
    let resumed := run_molecule (moved_to ld' j) (Some (resume_flags ck (lf_train crashed) same)) start in
    same_result names uninterrupted resumed /\
    regular_from (c_epoch ck) (lf_ckpts (files_of uninterrupted)) = regular_from 0 (skipn (List.length (lf_ckpts start)) (lf_ckpts (files_of resumed))).
  Proof.
    intros c key j Hw Hn Hb HL HE HB.
    destruct (built_ok g choice perm_of split_n device_keys ndev theta init_params grad_p grad_px opt_init opt_apply kfac has_nan param_l1_norm summary c key j Hg Hc Hdk Hnd Hw Hn Hb HL HE HB) as (H1 & H2).
    intros. eapply C65_resumed_job; eassumption.
  Qed.

  (** Training.  There are parameters, optimiser states and walkers for all epochs such that:
      - the first walkers come from positions around the ions by exactly the configured number of burning Metropolis steps, and in every epoch all walkers make the
        configured number of Metropolis steps for |psi|^2 with the parameters of that epoch; the last ones are returned;
      - if NaNs are looked for, the job stops after the first epoch whose unclipped energy or variance or whose new parameters contain one, and fails; without one it trains all epochs;
      - the files have one line per epoch; line i of accept_ratio.txt is the mean probability of acceptance of the proposals of epoch i, if psi has no zeros;
        line i of amplitude_min.txt and amplitude_max.txt, if asked for, is the least and greatest log|psi| of the walkers of epoch i with the new parameters;
      - with the "standard" local energy, line i of energy_noclip.txt and variance_noclip.txt is the mean and variance of (H psi)/psi over the walkers of epoch i, psi having the
        parameters of epoch i (for any choice of its signs), if psi is smooth and not zero there; energy.txt and variance.txt hold mean and variance of the clipped energies,
        the gradient is twice the covariance of the clipped energies with the derivatives of log|psi|;
      - the next parameters are what the chosen optimiser makes of it; the last ones are the job's result; the checkpoints hold these parameters, states and walkers. *)
  Theorem C78_training : forall c key j, well_formed_ions c -> (0 < wc_nchains (jc_walk c))%nat -> build c key = Some j -> 0 < wc_std (jc_walk c) ->
    jc_logdir c <> None -> jc_checkpoint_every c <> Some O -> jc_best_checkpoint_every c <> Some O ->
    exists o (params : nat -> P1) (opts : nat -> S1) (starts : nat -> list (list (list R))) (walkers : nat -> list (padata move_metadata)) (grads : nat -> nat -> xr) (centred : nat -> list (list xr)) (subkeys : nat -> list K) r initial,
    choose_optimiser (jc_optimizer c) = Chosen o /\ (r <= jc_nepochs c)%nat /\
    around_the_ions c initial /\ (exists accs, length accs = wc_nburn (jc_walk c) /\ metropolis (log_psi_of_walker theta c) (params O) accs initial (starts O)) /\
    (exists d k nans cks ms, train j None = Finished (repeat (params r) ndev) (repeat (opts r) ndev) d k nans cks ms /\ map pos d = starts r) /\
    let out := run_molecule j None empty_logfiles in let l := files_of out in let line name i := nth_error (lines_of (lf_train l) name) i in
    let nan i := line "energy_noclip" i = Some NaN \/ line "variance_noclip" i = Some NaN \/ has_nan (params (S i)) = true in
    ((exists l', out = NansDetected l') <-> jc_check_for_nans c = true /\ exists i, r = S i /\ nan i) /\
    (jc_check_for_nans c = true -> forall i, (S i < r)%nat -> ~ nan i) /\ ((r < jc_nepochs c)%nat -> exists l', out = NansDetected l') /\
    match out with Completed p _ => p = repeat (params r) ndev | _ => True end /\
    (forall name, In name ["energy"; "variance"; "energy_noclip"; "variance_noclip"; "accept_ratio"]%string -> length (lines_of (lf_train l) name) = r) /\
    (forall w, In w (lf_ckpts l) -> let e := c_epoch (snd w) in (e < r)%nat /\ c_params (snd w) = repeat (params e) ndev /\ c_opt (snd w) = repeat (opts e) ndev /\ map pos (c_data (snd w)) = starts e) /\
    forall i, (i < r)%nat ->
      length (all_walkers c (walkers i)) = wc_nchains (jc_walk c) /\ well_shaped (electron_count c) (space_dim c) (walkers i) /\ starts (S i) = map pos (walkers i) /\
      (exists accs, length accs = wc_nsteps (jc_walk c) /\ metropolis (log_psi_of_walker theta c) (params i) accs (starts i) (map pos (walkers i)) /\
         (wc_nsteps (jc_walk c) <> O -> no_nodes (log_psi_of_walker theta c) (params i) -> line "accept_ratio" i = Some (Fin (lmean accs)))) /\
      (jc_record_amplitudes c = true -> forall L, map (log_psi_of_walker theta c (params (S i))) (concat (map pos (walkers i))) = map Fin L ->
         exists lo hi, line "amplitude_min" i = Some (Fin lo) /\ line "amplitude_max" i = Some (Fin hi) /\ is_least lo L /\ is_greatest hi L) /\
      match o with
      | Kfac _ _ => length (subkeys i) = ndev /\ kf_step kfac o (grads i) (params i) (opts i) (subkeys i) (map pos (walkers i)) = (params (S i), opts (S i))
      | _ => opt_apply o (grads i) (params i) (opts i) (walkers_gradients theta grad_p c (params i) (walkers i)) (centred i) = (params (S i), opts (S i))
      end /\
      forall f, ec_type (jc_energy c) = "standard" -> ordinary_walkers theta c (params i) f (walkers i) ->
      let E := walkers_energies c f (walkers i) in
      line "energy_noclip" i = Some (Fin (lmean E)) /\ line "variance_noclip" i = Some (Fin (lvar E)) /\
      exists Ec, clipped (ec_clip_threshold (jc_energy c)) (ec_clip_center (jc_energy c)) (device_energies c f (walkers i)) Ec /\
        line "energy" i = Some (Fin (lmean (concat Ec))) /\ line "variance" i = Some (Fin (lvar (concat Ec))) /\
        centred i = map (map (fun x => Fin (x - lmean (concat Ec)))) Ec /\
        forall q, grads i q = Fin (2 * lcov (concat Ec) (map (fun gr => gr q) (concat (walkers_gradients theta grad_p c (params i) (walkers i))))).
  Proof.
    intros c key j Hw Hn Hb Hs HL HE HB.
    exact (trained g choice perm_of split_n device_keys ndev theta init_params grad_p grad_px opt_init opt_apply kfac has_nan param_l1_norm summary c key j Hg Hc Hdk Hnd Hw Hn Hb Hs HL HE HB).
  Qed.

  (** Evaluation, with the "standard" local energy: every row of local_energies.txt holds (H psi)/psi at the walkers of one evaluation epoch, psi having the parameters at the end of
      training; energy.txt and variance.txt hold their mean and variance; the statistics file is made from these rows.  The walkers start from the last ones of training if
      that is asked for and their number is right, and from new ones around the ions otherwise; they make the configured Metropolis steps. *)
  Theorem C78_evaluation : forall c key j, well_formed_ions c -> (0 < wc_nchains (jc_walk c))%nat -> build c key = Some j -> 0 < wc_std (jc_walk c) ->
    jc_logdir c <> None -> jc_checkpoint_every c <> Some O -> jc_best_checkpoint_every c <> Some O ->
    0 < wc_std (jc_eval_walk c) -> (2 <= wc_nchains (jc_eval_walk c))%nat -> jc_eval_record_local_energies c = true -> (2 <= jc_eval_nepochs c)%nat ->
    (forall l, run_molecule j None empty_logfiles <> NansDetected l) ->
    exists p (starts : nat -> list (list (list R))) (walkers : nat -> list (padata move_metadata)) l initial,
    run_molecule j None empty_logfiles = Completed (repeat p ndev) l /\
    (exists accs, length accs = wc_nburn (jc_eval_walk c) /\ metropolis (log_psi_of_walker theta c) p accs initial (starts O)) /\
    (jc_eval_use_training_data c = false \/ wc_nchains (jc_walk c) <> wc_nchains (jc_eval_walk c) -> around_the_ions c initial) /\
    (jc_eval_use_training_data c = true -> wc_nchains (jc_walk c) = wc_nchains (jc_eval_walk c) ->
       exists o d k cks ms, train j None = Finished (repeat p ndev) o d k false cks ms /\ initial = map pos d) /\
    length (lf_rows l) = jc_eval_nepochs c /\ lf_stats l = [summary (lf_rows l)] /\
    length (lines_of (lf_eval l) "energy") = jc_eval_nepochs c /\ length (lines_of (lf_eval l) "variance") = jc_eval_nepochs c /\
    forall i, (i < jc_eval_nepochs c)%nat ->
      length (all_walkers c (walkers i)) = wc_nchains (jc_eval_walk c) /\ well_shaped (electron_count c) (space_dim c) (walkers i) /\ starts (S i) = map pos (walkers i) /\
      (exists accs, length accs = wc_nsteps (jc_eval_walk c) /\ metropolis (log_psi_of_walker theta c) p accs (starts i) (map pos (walkers i))) /\
      forall f, ec_type (jc_eval_energy c) = "standard" -> ordinary_walkers theta c p f (walkers i) ->
      let E := walkers_energies c f (walkers i) in
      nth_error (lf_rows l) i = Some (map Fin E) /\
      nth_error (lines_of (lf_eval l) "energy") i = Some (Fin (lmean E)) /\ nth_error (lines_of (lf_eval l) "variance") i = Some (Fin (lvar E)).
  Proof.
    intros c key j Hw Hn Hb Hs HL HE HB.
    exact (evaluated g choice perm_of split_n device_keys ndev theta init_params grad_p grad_px opt_init opt_apply kfac has_nan param_l1_norm summary c key j Hg Hc Hdk Hnd Hw Hn Hb Hs HL HE HB).
  Qed.
End Jobs.
Print Assumptions C77_translation.
Print Assumptions C77_fresh_job.
Print Assumptions C78_accepted.
Print Assumptions C78_training_never_fails.
Print Assumptions C78_resumed_job.
Print Assumptions C78_training.
Print Assumptions C78_evaluation.

(** The configured FermiNets that have a value for every parameter and every position. *)
Theorem C78_ferminet_evaluates : forall c, well_formed_ions c -> ms_type (jc_model c) = "ferminet" -> good_sections (jc_model c) (length (jc_nelec c)) (length (jc_ion_pos c)) (length (jc_ion_charges c)) ->
  (2 <= length (jc_nelec c))%nat -> let f := ms_ferminet (jc_model c) in (0 < fc_ndeterminants f)%nat -> sc_ei_norm (fc_streams f) = true ->
  (fc_use_det_resnet f = true -> upper (rc_mode (fc_det_resnet f)) = "PAIRWISE_EVEN" -> fc_full_det f = false /\ length (jc_nelec c) = 2%nat) ->
  model_evaluates c.
Proof.
  intros c (W1 & W2 & W3) Ht Hs H2 f Hd He Hr th x Hx.
  destruct (proj2 (C72_accepted (jc_model c) (jc_nelec c) (fin_array (jc_ion_pos c)) (map Fin (jc_ion_charges c)) th)) as (w & Ew).
  { unfold fin_array. rewrite !map_length. exact Hs. }
  destruct (C72_ferminet_defined (jc_model c) (jc_nelec c) (fin_array (jc_ion_pos c)) (map Fin (jc_ion_charges c)) th w (space_dim c) x Ht Ew H2) as (p & Ep); try assumption.
  { unfold fin_array. split; [reflexivity|]. apply Forall_forall. intros a Ha. apply in_map_iff in Ha. destruct Ha as (b & <- & Hb). rewrite map_length. rewrite Forall_forall in W2. apply W2. exact Hb. }
  exists w, (snd p). split; [exact Ew|]. unfold log_psi. rewrite Ep. reflexivity.
Qed.
Print Assumptions C78_ferminet_evaluates.

(** ** The small job of E_job.v on two devices *)
Definition line_grad (f : R -> R) (p : R) (i : nat) : R := if Nat.eqb i 0 then Derive f p else 0.
Definition line_step (o : optimiser) (gr : nat -> xr) (p : R) (s : unit) (_ : list (list (nat -> R))) (_ : list (list xr)) : R * unit :=
  (match gr O with Fin x => p - / 20 * x | _ => p end, s).
Definition line_kfac : kfac_optimizer R unit nat := {| kf_init := fun _ _ _ _ => tt; kf_value_key := fun k => k; kf_step := fun o gr p s _ _ => line_step o gr p s [] [] |}.
Definition line_job := build_job ex_prng ex_choice (fun _ i => i) (fun k n => repeat k n) (fun k => [k; S k]) 2 line_params (fun _ _ => 1) line_grad (fun f p i => NaN) (fun _ _ => tt) line_step line_kfac (fun _ => false) (fun p => Fin (Rabs p))
  (fun rows => rows).
Lemma line_ions : well_formed_ions line_config.
Proof. split; [discriminate|]. split; [repeat constructor|reflexivity]. Qed.
Lemma line_accepted : accepted_config 2 line_config.
Proof.
  split; [reflexivity|]. split; [discriminate|]. split; [|split; [|split; [left; reflexivity|intros _; reflexivity]]].
  - split; [cbn; tauto|]. split; [discriminate|]. intros _ H. cbn in H. lra.
  - split; [cbn; tauto|]. split; [discriminate|]. split; [|discriminate]. intros s Hs. cbn in Hs. injection Hs as <-. unfold known_schedule. cbn. tauto.
Qed.
Lemma same_order k : renumbering (electron_count line_config) ((fun (_ : nat) (i : nat) => i) k).
Proof. unfold renumbering. rewrite map_id. apply Permutation_refl. Qed.
(** It starts, moved or not; its wavefunction is exp (-(sqrt ((p x1)^2 + 1) - 1)) exp (-(sqrt ((p x2)^2 + 1) - 1)), positive and smooth at every walker whatever p. *)
Lemma line_starts key : exists j, line_job line_config key = Some j.
Proof. apply C78_accepted; [exact ex_prng_good|exact ex_choice_good|reflexivity|lia|exact line_ions|cbn; lia|exact line_evaluates|exact line_accepted]. Qed.
Example C77_example : forall key v, exists j j', line_job line_config key = Some j /\ line_job (moved_config v line_config) key = Some j' /\
  jc_ion_pos (moved_config (fun _ => 3) line_config) = [[0 + 3]] /\ moved_walker 1 (fun _ => 3) [1; 2] = [1 + 3; 2 + 3] /\
  lf_train (files_of (run_molecule j' None empty_logfiles)) = lf_train (files_of (run_molecule j None empty_logfiles)).
Proof.
  intros key v. destruct (line_starts key) as (j & Ej). unfold line_job in *.
  match type of Ej with build_job ?a1 ?a2 ?a3 ?a4 ?a5 ?a6 ?a7 ?a8 ?a9 ?b1 ?b2 ?b3 ?b4 ?b5 ?b6 ?b7 _ _ = _ =>
    pose proof (C77_translation a1 a2 a3 a4 a5 a6 a7 a8 a9 b1 b2 b3 b4 b5 b6 b7 ex_prng_good ex_choice_good line_config v key ltac:(discriminate) same_order ltac:(discriminate) line_ions ltac:(cbn; lia)) as H;
    rewrite Ej in H; destruct (build_job a1 a2 a3 a4 a5 a6 a7 a8 a9 b1 b2 b3 b4 b5 b6 b7 (moved_config v line_config) key) as [j'|] eqn:Ej'; [|contradiction];
    exists j, j'; split; [reflexivity || exact Ej|]; split; [reflexivity || exact Ej'|]; split; [reflexivity|]; split; [reflexivity|];
    apply (C77_fresh_job a1 a2 a3 a4 a5 a6 a7 a8 a9 b1 b2 b3 b4 b5 b6 b7 ex_prng_good ex_choice_good line_config v key j j' ltac:(discriminate) same_order ltac:(discriminate) line_ions ltac:(cbn; lia) Ej Ej')
  end.
Qed.

Example C78_example : forall key, exists j (params : nat -> R) (walkers : nat -> list (padata move_metadata)), line_job line_config key = Some j /\
  let l := files_of (run_molecule j None empty_logfiles) in
  lines_of (lf_train l) "energy" = map (fun i => Fin (lmean (walkers_energies line_config (line_psi (params i)) (walkers i)))) (seq 0 6) /\
  (forall i, (i < 6)%nat -> length (all_walkers line_config (walkers i)) = 4%nat) /\
  (forall i, (i < 5)%nat -> exists accs, length accs = wc_nsteps (jc_walk line_config) /\ metropolis (log_psi_of_walker line_params line_config) (params (S i)) accs (map pos (walkers i)) (map pos (walkers (S i))) /\
     nth_error (lines_of (lf_train l) "accept_ratio") (S i) = Some (Fin (lmean accs))) /\
  exists p eval_walkers, run_molecule j None empty_logfiles = Completed [p; p] l /\
    lf_rows l = map (fun i => map Fin (walkers_energies line_config (line_psi p) (eval_walkers i))) (seq 0 3) /\ lf_stats l = [lf_rows l].
Proof.
  assert (LN : forall (A : Type) (l : list A) n f, length l = n -> (forall i, (i < n)%nat -> nth_error l i = Some (f i)) -> l = map f (seq 0 n)).
  { intros A l n f Hl H. apply (nth_ext _ _ (f O) (f O)); [rewrite map_length, seq_length; exact Hl|]. intros i Hi. rewrite Hl in Hi. rewrite (map_nth f (seq 0 n) O i), seq_nth by exact Hi. cbn [plus].
    apply nth_error_nth. apply H. exact Hi. }
  intros key. destruct (line_starts key) as (j & Ej). unfold line_job in *.
  match type of Ej with build_job ?a1 ?a2 ?a3 ?a4 ?a5 ?a6 ?a7 ?a8 ?a9 ?b1 ?b2 ?b3 ?b4 ?b5 ?b6 ?b7 _ _ = _ =>
    destruct (C78_training a1 a2 a3 a4 a5 a6 a7 a8 a9 b1 b2 b3 b4 b5 b6 b7 ex_prng_good ex_choice_good ltac:(reflexivity) ltac:(lia) line_config key j line_ions ltac:(cbn; lia) Ej ltac:(cbn; lra) ltac:(discriminate) ltac:(discriminate) ltac:(discriminate))
      as (o & params & opts & starts & walkers & grads & centred & subkeys & r & initial & Ho & Hr0 & HA & HM0 & _ & HN & _ & Hr & HC & HL & _ & HI);
    pose proof (C78_evaluation a1 a2 a3 a4 a5 a6 a7 a8 a9 b1 b2 b3 b4 b5 b6 b7 ex_prng_good ex_choice_good ltac:(reflexivity) ltac:(lia) line_config key j line_ions ltac:(cbn; lia) Ej ltac:(cbn; lra) ltac:(discriminate) ltac:(discriminate) ltac:(discriminate)
      ltac:(cbn; lra) ltac:(cbn; lia) eq_refl ltac:(cbn; lia)) as HE end.
  assert (E6 : r = 6%nat) by (change (jc_nepochs line_config) with 6%nat in *; destruct (Nat.lt_ge_cases r 6) as [Z|Z]; [apply Hr, HN in Z; destruct Z; discriminate|lia]). subst r. exists j, params, walkers. split; [exact Ej|]. cbv zeta. split; [|split; [|split]].
  - apply LN; [apply HL; cbn; tauto|]. intros i Hi. destruct (HI i Hi) as (_ & _ & _ & _ & _ & _ & H). destruct (H (line_psi (params i)) eq_refl (line_ordinary _ _)) as (_ & _ & Ec & HC' & HE' & _). rewrite HE'. do 2 f_equal. unfold walkers_energies. do 2 f_equal.
    revert HC'. unfold clipped. generalize (concat (device_energies line_config (line_psi (params i)) (walkers i))) as all. intros all. clear. induction 1 as [|a b la lb (Hab & _) _ IH]; [reflexivity|]. rewrite IH, Hab by (cbn; lra). reflexivity.
  - intros i Hi. apply (HI i Hi).
  - intros i Hi. destruct (HI i ltac:(lia)) as (_ & _ & Es & _). destruct (HI (S i) ltac:(lia)) as (_ & _ & _ & (accs & LA & MA & AA) & _). exists accs. split; [exact LA|]. rewrite <- Es. split; [exact MA|].
    apply AA; [discriminate|]. apply line_no_nodes.
  - destruct HE as (p & sts & w & l & ini & E & _ & _ & _ & HR & HS & _ & _ & H).
    { intros l. eapply no_nans; [exact ex_prng_good|exact ex_choice_good| | |exact line_ions|cbn; lia|exact Ej|discriminate|discriminate|discriminate|reflexivity]; [reflexivity|lia]. }
    rewrite E. exists p, w. split; [reflexivity|]. cbn [files_of]. split; [|exact HS]. apply LN; [exact HR|]. intros i Hi. destruct (H i Hi) as (_ & _ & _ & _ & H1). apply (H1 (line_psi p) eq_refl (line_ordinary _ _)).
Qed.
(** The default FermiNet has a value for every molecule with two spin species. *)
Example C78_ferminet_example : forall c up down, well_formed_ions c -> jc_nelec c = [up; down] -> jc_model c = default_sections "ferminet" -> model_evaluates c.
Proof.
  intros c up down Hw Hn Hm. apply C78_ferminet_evaluates; rewrite ?Hm, ?Hn; try exact Hw; try reflexivity; try (cbn; lia); try discriminate.
  destruct (C72_example "ferminet" (line_params 1) (or_introl eq_refl)) as (H & _). apply C72_accepted in H. unfold good_sections in *. cbv zeta in *.
  destruct H as [H|H]; [left; exact H|]. cbn [ms_type default_sections] in H. exfalso. repeat destruct H as [(H & _)|H]; try discriminate; destruct H; discriminate.
Qed.
(** The same job with KFAC (here a third-party step that moves along the gradient) also starts. *)
Definition with_optimizer (o : opt_cfg) (c : job_config) : job_config :=
  {| jc_ion_pos := jc_ion_pos c; jc_ion_charges := jc_ion_charges c; jc_nelec := jc_nelec c; jc_ei_softening := jc_ei_softening c; jc_ee_softening := jc_ee_softening c; jc_model := jc_model c; jc_walk := jc_walk c;
     jc_energy := jc_energy c; jc_optimizer := o; jc_record_param_l1_norm := jc_record_param_l1_norm c; jc_nepochs := jc_nepochs c; jc_logdir := jc_logdir c; jc_checkpoint_every := jc_checkpoint_every c;
     jc_best_checkpoint_every := jc_best_checkpoint_every c; jc_checkpoint_dir := jc_checkpoint_dir c; jc_checkpoint_variance_scale := jc_checkpoint_variance_scale c; jc_check_for_nans := jc_check_for_nans c;
     jc_record_amplitudes := jc_record_amplitudes c; jc_nhistory_max := jc_nhistory_max c;
     jc_eval_walk := jc_eval_walk c; jc_eval_energy := jc_eval_energy c; jc_eval_use_training_data := jc_eval_use_training_data c; jc_eval_record_amplitudes := jc_eval_record_amplitudes c;
     jc_eval_record_local_energies := jc_eval_record_local_energies c; jc_eval_nepochs := jc_eval_nepochs c |}.
Example C77_kfac_example : forall key v, let c := with_optimizer (default_optimizer "kfac") line_config in kfac_ignores line_kfac v c /\ exists j, line_job c key = Some j.
Proof.
  intros key v c. split; [intros _ o; split; reflexivity|]. apply C78_accepted; [exact ex_prng_good|exact ex_choice_good|reflexivity|lia|exact line_ions|cbn; lia|exact line_evaluates|].
  destruct line_accepted as (A1 & A2 & A3 & _ & A5 & A6). split; [exact A1|]. split; [exact A2|]. split; [exact A3|]. split; [|split; [exact A5|exact A6]].
  split; [cbn; tauto|]. split; [discriminate|]. split; [|discriminate]. intros s Hs. cbn in Hs. injection Hs as <-. unfold known_schedule. cbn. tauto.
Qed.
