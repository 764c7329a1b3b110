(** * Configured wavefunctions are smooth away from coincidences: C84 *)
From Coquelicot Require Import Coquelicot.
From Coq Require Import String Reals List Bool Arith Lia Lra.
From Verif Require Import XReal Rsum M_io M_vmc M_files M_mcmc M_distribute M_energy M_physics M_setup M_slog M_models M_antisym M_construct M_dispatch M_optim M_optax M_run M_start M_job
  S_mcmc S_perm S_vmc S_files S_optim S_run S_start S_optax S_energy S_physics S_setup S_job S_models S_antisym S_construct S_dispatch S_total S_finite P_job P_jobrun
  P_split P_equiv P_equiv2 P_models P_jastrow P_leibniz P_antisym P_construct P_construct2 P_construct3 P_construct4 P_construct5 P_dispatch P_total P_finite P_finite2 P_finite3
  P_smooth P_smooth2 P_smooth3 P_smooth4 P_smooth5 P_smooth6 P_smooth7 P_smooth8 S_smooth E_job T_dispatch T_shift T_start T_job T_total T_finite.
Import ListNotations.
Local Open Scope R_scope.
Local Open Scope string_scope.

(** Where no two electrons coincide and no electron coincides with an ion (nor, for the embedded-particle FermiNet, any particle with a hidden one, nor for a
    backflow-based Jastrow factor any row of its features with zero), the wavefunction of every smooth model,
    with any finite parameters, has first derivatives nearby and second derivatives along every coordinate of every electron. *)
Theorem C84_smooth : forall m nelec ions q theta w d y, model_of_job m nelec (map (map Fin) ions) (map Fin q) theta = Some w -> smooth_model m ->
  (2 <= length nelec)%nat -> Forall (fun n => (0 < n)%nat) nelec -> Forall (fun a => length a = d) ions -> finite_sections m -> finite_params theta ->
  no_coincidence d 0 (list_sum nelec) y -> no_ion_coincidence d 0 (list_sum nelec) (length ions) y (fun j k => nth k (nth j ions []) 0) ->
  hidden_particles_apart w (map (map Fin) ions) (position_array (list_sum nelec) d y) -> jastrow_features_nonzero w (position_array (list_sum nelec) d y) ->
  smooth_at (list_sum nelec) d (psi_at w (list_sum nelec) d) y.
Proof.
  intros m nelec ions q th w d y E Sm L2 Ps Li Fm Ft Nc Ni Hh Hf i c Hi Hc. apply D2_smooth. set (n := list_sum nelec) in *.
  assert (NE : nelec <> []) by (intros ->; cbn in L2; lia). pose proof (spin_split_describes nelec NE) as D.
  assert (NA : At (get_spin_split nelec) <> At []) by (destruct nelec as [|a [|b r]]; [congruence|cbn in L2; lia|discriminate]).
  set (fi := map (map Fin) ions) in *. set (fq := map Fin q) in *.
  assert (Si : shape2 (length fi) d fi) by (split; [reflexivity|unfold fi; apply Forall_map; eapply Forall_impl; [|exact Li]; intros a Ha; cbn; rewrite map_length; exact Ha]).
  assert (Fi : all_finite fi) by (unfold all_finite, fi; apply Forall_map, Forall_forall; intros a _; apply Forall_map, Forall_forall; intros r _; reflexivity).
  assert (Fq : Forall finite fq) by (unfold fq; apply Forall_map, Forall_forall; intros r _; reflexivity).
  set (X := fun t => array_of n d (displaced y i c t)). assert (X0 : X 0 = position_array n d y) by (unfold X; rewrite displaced_0; reflexivity).
  pose proof (fam_displaced n d y i c) as HX. change (fam2 X) in HX. assert (Sx : shape2 (list_sum nelec) d (X 0)) by (rewrite X0; apply (shape_array_of n d y)).
  assert (Fx : all_finite (X 0)) by (rewrite X0; apply positions_finite).
  assert (Aw : forall o, away (get_compute_input_streams_from_config o fi) (X 0)).
  { intros o. split; [intros io [= <-]; apply (rows_clear fi (X 0) (list_sum nelec) d); try assumption; rewrite X0; apply positions_off_ions; assumption|].
    apply (rows_apart (X 0) d Fx); [destruct Sx as (L & F); split; [reflexivity|exact F]|rewrite X0; apply positions_apart; exact Nc]. }
  change (smooth_value (fun t => slog_psi w (X t))).
  destruct Fm as (M1 & M2 & M3 & M4 & M5 & M6 & M7 & M8). pose proof Ft as (T1 & T2 & _).
  assert (N : (0 < list_sum nelec)%nat) by (destruct Ps as [|n0 r Hn _]; [congruence|cbn; lia]).
  unfold model_of_job in E. apply bind_some in E. destruct E as (cf & Ec & E). unfold choose_model_type_in_model_config in Ec. cbv zeta in Ec.
  assert (QQ : forall k c0 bs a, finite_antieq_config c0 -> (k = Cofactor -> qc_orbitals_use_bias c0 = true) -> (k = PerParticle -> qc_isotropic_decay c0 = true) ->
      get_backflow_from_config (qc_backflow c0) (At (get_spin_split nelec)) (mp_backflow th) = Some bs -> build_antieq k c0 (At (get_spin_split nelec)) fi bs th = Some a -> smooth_value (fun t => antieq_net_call a (X t))).
  { intros k c0 bs a Hcf K1 K2 Eb Ea. destruct (antieq_fields _ _ _ _ _ _ _ Ea) as (F1 & F2 & F3 & F5 & F4 & _). pose proof (backflow_fin _ _ _ _ (proj1 Hcf) T1 Eb) as Bf.
    apply (antieq_smooth a nelec d X); try (rewrite F1); try (rewrite F2); try (rewrite F3); try assumption;
      [eapply backflow_built; eassumption|eapply cov_ok; eassumption|eapply build_antieq_fin; eassumption|apply config_streams_fin; exact Fi|eapply backflow_act; exact Eb|eapply cov_act; exact F4|eapply antieq_envelopes; eassumption|apply Aw]. }
  destruct Sm as [(Et & Sc)|[(Et & Sc)|[(Et & Sc)|[(Et & Sc)|[(Et & Sc)|Et]]]]]; rewrite Et in Ec; cbn in Ec; apply some_inj in Ec; subst cf; cbn [get_model_from_config] in E.
  - apply bind_some in E. destruct E as (bs & Eb & E). apply map_some in E. destruct E as (f & En & <-). cbn [slog_psi].
    destruct (ferminet_fields _ _ _ _ _ _ En) as (F1 & F2 & F3 & F4 & F5 & F6 & _). pose proof (backflow_fin _ _ _ _ (proj1 M1) T1 Eb) as Bf.
    apply (ferminet_smooth f nelec d X); try assumption.
    + split; [rewrite F1; exact D|]. split; [rewrite F3; eapply backflow_built; eassumption|rewrite F2; exact Si].
    + eapply build_net_fin; eassumption.
    + rewrite F3. eapply backflow_act; exact Eb.
    + eapply built_det_fn; eassumption.
    + rewrite F2. apply config_streams_fin. exact Fi.
    + rewrite F5, F6. exact Sc.
    + rewrite F2. apply Aw.
  - apply bind_some in E. destruct E as (tot & Etot & E). apply bind_some in E. destruct E as (bs & Eb & E). apply bind_some in E. destruct E as (ib & Ei & E).
    apply bind_some in E. destruct E as (f & En & E). apply check_some in E. destruct E as (_ & E). apply some_inj in E. subst w. cbn [slog_psi].
    destruct (ferminet_fields _ _ _ _ _ _ En) as (F1 & F2 & F3 & F4 & F5 & F6 & _). pose proof (backflow_fin _ _ _ _ (proj1 (proj1 M2)) T1 Eb) as Bf. pose proof (backflow_fin _ _ _ _ (proj2 M2) T2 Ei) as Bf2.
    match goal with |- smooth_value (fun t => embedded_call ?e0 _) => set (e := e0) in *; apply (embedded_smooth e nelec d X) end; cbn [e em_net em_backflow em_streams em_nhidden em_dense]; try assumption.
    + rewrite F1. exact D.
    + rewrite F1. exact NA.
    + eapply backflow_built; eassumption.
    + intros L. rewrite (add_counts_same _ _ L) in Etot. apply some_inj in Etot. subst tot. rewrite F3. refine (backflow_built _ _ _ _ _ _ Eb). apply spin_split_describes. intros Z. apply (f_equal (@length nat)) in Z.
      unfold embedded_sizes in Z. rewrite zipw_add_length in Z by (symmetry; exact L). destruct nelec; [congruence|discriminate].
    + rewrite F2. exact Si.
    + eapply build_net_fin; [exact (proj1 M2)|exact Ft|exact Bf|exact En].
    + rewrite F2. apply config_streams_fin. exact Fi.
    + apply config_streams_fin. exact Fi.
    + intros j. apply hidden_fin. exact Ft.
    + rewrite F3. eapply backflow_act; exact Eb.
    + eapply backflow_act; exact Ei.
    + eapply built_det_fn; eassumption.
    + rewrite F5, F6. exact Sc.
    + apply Aw.
    + intros z s Ez Sz. rewrite X0 in Ez. destruct (Hh e z s eq_refl Ez) as (H1 & H2). rewrite F2.
      assert (Fz : all_finite z).
      { apply (embed_finite e nelec d (position_array n d y) z s); cbn [e em_net em_backflow em_streams em_nhidden em_dense]; try assumption.
        - rewrite F1. exact D.
        - rewrite F1. exact NA.
        - eapply backflow_built; eassumption.
        - apply config_streams_fin. exact Fi.
        - intros j. apply hidden_fin. exact Ft.
        - apply (shape_array_of n d y).
        - apply positions_finite. }
      split; [intros io [= <-]; apply (rows_clear fi z (length z) d); assumption|apply (rows_apart z d); assumption].
  - apply bind_some in E. destruct E as (bs & Eb & E). apply bind_some in E. destruct E as (ib & Ei & E).
    apply bind_some in E. destruct E as (f & En & E). apply check_some in E. destruct E as (_ & E). apply some_inj in E. subst w. cbn [slog_psi].
    destruct (ferminet_fields _ _ _ _ _ _ En) as (F1 & F2 & F3 & F4 & F5 & F6 & _). pose proof (backflow_fin _ _ _ _ (proj1 (proj1 M3)) T1 Eb) as Bf.
    assert (Q : (forall b, ib = Some b -> Forall block_fin b /\ Forall block_act b /\ built_for nelec b)).
    { intros b ->. destruct (hc_separate_backflow (ms_extended m)); [|discriminate]. apply map_some in Ei. destruct Ei as (b' & Ei & Z). apply some_inj in Z. subst b'. split; [eapply backflow_fin; [exact (proj2 M3)|exact T2|exact Ei]|split; [eapply backflow_act; exact Ei|eapply backflow_built; eassumption]]. }
    match goal with |- smooth_value (fun t => extended_call ?e0 _) => apply (extended_smooth e0 nelec d X) end; cbn [ex_net ex_backflow ex_dense]; try assumption.
    + split; [rewrite F1; exact D|]. split; [rewrite F3; eapply backflow_built; eassumption|rewrite F2; exact Si].
    + unfold extended_backflow_ok. cbn [ex_backflow]. destruct ib as [b|]; [apply (Q b eq_refl)|exact Logic.I].
    + eapply build_net_fin; [exact (proj1 M3)|exact Ft|exact Bf|exact En].
    + rewrite F3. eapply backflow_act; exact Eb.
    + eapply built_det_fn; eassumption.
    + rewrite F2. apply config_streams_fin. exact Fi.
    + rewrite F5, F6. exact Sc.
    + intros b Hb. destruct (Q b Hb) as (Q1 & Q2 & _). split; assumption.
    + intros j. apply hidden_fin. exact Ft.
    + rewrite F2. apply Aw.
  - apply bind_some in E. destruct E as (bs & Eb & E). apply map_some in E. destruct E as (a & Ea & <-). cbn [slog_psi]. apply (QQ Cofactor (ms_cofactor m) bs a); try assumption; [intros _; exact Sc|discriminate].
  - apply bind_some in E. destruct E as (bs & Eb & E). apply map_some in E. destruct E as (a & Ea & <-). cbn [slog_psi]. apply (QQ PerParticle (ms_per_particle m) bs a); try assumption; [discriminate|intros _; exact Sc].
  - apply bind_some in E. destruct E as (bs & Eb & E). apply map_some in E. destruct E as (a & Ea & <-). cbn [slog_psi].
    destruct (explicit_fields _ _ _ _ _ _ _ Ea) as (F1 & F2 & F3 & F4). pose proof (backflow_fin _ _ _ _ M6 T1 Eb) as Bf. destruct (build_explicit_fin _ _ _ _ _ _ _ M7 M8 Ft Fi Fq Bf Ea) as (X1 & _).
    apply (explicit_smooth a nelec d X); try (rewrite F1); try (rewrite F2); try assumption;
      [rewrite F3; eapply backflow_built; eassumption|apply config_streams_fin; exact Fi|rewrite F3; eapply backflow_act; exact Eb|eapply explicit_act; exact Ea|eapply jastrow_built; eassumption|eapply jastrow_acts; eassumption| |apply Aw].
    intros s bs' Es Ej row Hr. rewrite X0 in Es, Hr. apply (Hf a row eq_refl). unfold jastrow_features. unfold stream1, stream2 in *. rewrite F2.
    destruct (compute_input_streams _ (position_array n d y)) as (((j1, j2), r1), r2). cbn [fst snd] in *. destruct j1 as [j1|]; [|discriminate]. cbn in Es. apply some_inj in Es. subst s.
    destruct (en_jastrow a) as [| |[b|]|? ? ? ? [b|]]; cbn in Ej; try discriminate; injection Ej as <-; exact Hr.
Qed.
Print Assumptions C84_smooth.

(** The absolute value of this number is the exponential of what the model returns as log|psi|, and it depends on the positions of the electrons only. *)
Theorem C84_modulus : forall m nelec ions q theta w d y, model_of_job m nelec (map (map Fin) ions) (map Fin q) theta = Some w ->
  (2 <= length nelec)%nat -> Forall (fun n => (0 < n)%nat) nelec -> Forall (fun a => length a = d) ions -> finite_sections m -> finite_params theta ->
  reads (list_sum nelec) d (psi_at w (list_sum nelec) d) /\
  Rabs (psi_at w (list_sum nelec) d y) = match log_psi w (position_array (list_sum nelec) d y) with Some (Fin l) => exp l | _ => 0 end.
Proof.
  intros m nelec ions q th w d y E L2 Ps Li Fm Ft. split.
  - intros x x' H. unfold psi_at. replace (position_array (list_sum nelec) d x') with (position_array (list_sum nelec) d x); [reflexivity|]. unfold position_array. apply map_ext_in. intros i Hi. apply map_ext_in. intros k Hk.
    apply in_seq in Hi, Hk. rewrite (H i k) by lia. reflexivity.
  - unfold psi_at, log_psi. destruct (slog_psi w (position_array (list_sum nelec) d y)) as [p|] eqn:Ep; [|apply Rabs_R0].
    assert (Si : shape2 (length (map (map Fin) ions)) d (map (map Fin) ions)) by (split; [reflexivity|apply Forall_map; eapply Forall_impl; [|exact Li]; intros a Ha; cbn; rewrite map_length; exact Ha]).
    assert (Fi : all_finite (map (map Fin) ions)) by (unfold all_finite; apply Forall_map, Forall_forall; intros a _; apply Forall_map, Forall_forall; intros r _; reflexivity).
    assert (Fq : Forall finite (map Fin q)) by (apply Forall_map, Forall_forall; intros r _; reflexivity).
    destruct (C82_number m nelec _ _ th w d _ p E L2 Ps Si (shape_array_of _ d y) Fm Ft Fi Fq (positions_finite _ d y) Ep) as [(psi & ->)|(_ & ->)]; [|cbn; apply Rabs_R0].
    rewrite number_slog. unfold slog_of. cbn [option_map snd]. destruct (Req_EM_T psi 0) as [->|Nz]; [apply Rabs_R0|]. symmetry. apply exp_ln. apply Rabs_pos_lt. exact Nz.
Qed.
Print Assumptions C84_modulus.

Lemma soft_apart d s a b : soft_distance d 0 a b <> 0 -> soft_distance d s a b <> 0.
Proof.
  intros H Z. apply H. unfold soft_distance in *. set (D := distance d a b) in *. pose proof (pow2_ge_0 D) as P. pose proof (pow2_ge_0 s) as Q. apply sqrt_eq_0 in Z; [|lra]. replace (D ^ 2 + 0 ^ 2) with 0 by (cbn in *; lra). apply sqrt_0.
Qed.
(** The walkers of a smooth job that are regular are ordinary points of its wavefunction: what C78 asks for holds, with the configured wavefunction itself. *)
Theorem C84_ordinary_walkers : forall (P1 : Type) (theta : P1 -> model_params) c p datas w, well_formed_ions c -> smooth_job c -> finite_params (theta p) ->
  model_of_job (jc_model c) (jc_nelec c) (map (map Fin) (jc_ion_pos c)) (map Fin (jc_ion_charges c)) (theta p) = Some w ->
  regular_walkers theta c p datas -> ordinary_walkers theta c p (configured_psi theta c p) datas.
Proof.
  intros P1 theta c p datas w (W1 & W2 & W3) (Sm & L2 & Ps & Fm & Na) Ft Ew Hr. assert (EP : forall y, configured_psi theta c p y = psi_at w (electron_count c) (space_dim c) y) by (intros y; unfold configured_psi; rewrite Ew; reflexivity).
  assert (EF : configured_psi theta c p = psi_at w (electron_count c) (space_dim c)) by (unfold configured_psi; rewrite Ew; reflexivity).
  split.
  - intros y. rewrite EP. unfold electron_count. destruct (C84_modulus _ _ _ _ _ w (space_dim c) y Ew L2 Ps W2 Fm Ft) as (_ & ->). unfold modulus, configured_log_psi. rewrite Ew. unfold position_array, electron_count.
    destruct (log_psi w _) as [[]|]; reflexivity.
  - intros y Hy. destruct (Hr y Hy) as (N1 & N2 & N3 & N4). destruct (N3 w Ew) as (N5 & N6). unfold ordinary. rewrite EF in *. split; [exact (proj1 (C84_modulus _ _ _ _ _ w (space_dim c) y Ew L2 Ps W2 Fm Ft))|]. split; [exact N4|].
    split; [exact (C84_smooth _ _ _ _ _ w (space_dim c) y Ew Sm L2 Ps W2 Fm Ft N1 N2 N5 N6)|].
    split; [intros i j Hi Hj; apply soft_apart, N2; [exact Hi|rewrite <- W3; exact Hj]|]. split; [intros i j Hi Hj Ne; apply soft_apart, N1; assumption|exact Na].
Qed.
Print Assumptions C84_ordinary_walkers.

Section Jobs.
  (** As for C78: everything outside vmcnet is arbitrary, the random number generators satisfy their contracts, and there is one key per device. *)
  Context {P1 S1 K J : Type}.
  Variables (g : prng K) (choice : choice_fn K) (perm_of : K -> nat -> nat) (split_n : K -> nat -> list K) (device_keys : K -> list K) (ndev : nat).
  Variables (theta : P1 -> model_params) (init_params : K -> list nat -> P1).
  Variables (grad_p : (P1 -> R) -> P1 -> nat -> R) (grad_px : (P1 -> xr) -> P1 -> nat -> xr).
  Variables (opt_init : optimiser -> P1 -> S1)
            (opt_apply : optimiser -> (nat -> xr) -> P1 -> S1 -> list (list (nat -> R)) -> list (list xr) -> P1 * S1).
  Variable kfac : kfac_optimizer P1 S1 K.
  Variables (has_nan : P1 -> bool) (param_l1_norm : P1 -> xr) (summary : list (list xr) -> J).
  Notation build := (build_job g choice perm_of split_n device_keys ndev theta init_params grad_p grad_px opt_init opt_apply kfac has_nan param_l1_norm summary).
  Hypothesis Hg : good_prng g.
  Hypothesis Hc : good_choice choice.
  Hypothesis Hdk : forall k, length (device_keys k) = ndev.
  Hypothesis Hnd : (0 < ndev)%nat.

  (** Training of a smooth job with the "standard" local energy: with the walkers that the configured Metropolis steps produce, line i of energy_noclip.txt and variance_noclip.txt is the mean
      and variance over the walkers of (H psi)/psi, psi the configured wavefunction with the parameters of epoch i, whenever these are finite and the walkers regular. *)
  Theorem C84_training : forall c key j, well_formed_ions c -> (0 < wc_nchains (jc_walk c))%nat -> build c key = Some j -> 0 < wc_std (jc_walk c) ->
    jc_logdir c <> None -> jc_checkpoint_every c <> Some O -> jc_best_checkpoint_every c <> Some O -> smooth_job c -> ec_type (jc_energy c) = "standard" ->
    exists (params : nat -> P1) (starts : nat -> list (list (list R))) (walkers : nat -> list (padata move_metadata)) r initial,
    (r <= jc_nepochs c)%nat /\ around_the_ions c initial /\ (exists accs, length accs = wc_nburn (jc_walk c) /\ metropolis (log_psi_of_walker theta c) (params O) accs initial (starts O)) /\
    (exists o d k nans cks ms, train j None = Finished (repeat (params r) ndev) o d k nans cks ms /\ map pos d = starts r) /\
    let line name i := nth_error (lines_of (lf_train (files_of (run_molecule j None empty_logfiles))) name) i in
    forall i, (i < r)%nat ->
      length (all_walkers c (walkers i)) = wc_nchains (jc_walk c) /\ starts (S i) = map pos (walkers i) /\
      (exists accs, length accs = wc_nsteps (jc_walk c) /\ metropolis (log_psi_of_walker theta c) (params i) accs (starts i) (map pos (walkers i))) /\
      (finite_params (theta (params i)) -> regular_walkers theta c (params i) (walkers i) ->
       let E := walkers_energies c (configured_psi theta c (params i)) (walkers i) in
       line "energy_noclip" i = Some (Fin (lmean E)) /\ line "variance_noclip" i = Some (Fin (lvar E))).
  Proof.
    intros c key j Hw Hn Hb Hs HL HE HB Sj Et.
    destruct (C78_training g choice perm_of split_n device_keys ndev theta init_params grad_p grad_px opt_init opt_apply kfac has_nan param_l1_norm summary Hg Hc Hdk Hnd c key j Hw Hn Hb Hs HL HE HB)
      as (o & params & opts & starts & walkers & grads & centred & subkeys & r & initial & Ho & Hr0 & HA & HM0 & HT & HN & _ & Hr & HC & HLn & _ & HI).
    exists params, starts, walkers, r, initial. split; [exact Hr0|]. split; [exact HA|]. split; [exact HM0|]. split; [destruct HT as (d & k & nans & cks & ms & E & Ed); exists (repeat (opts r) ndev), d, k, nans, cks, ms; split; assumption|].
    intros line i Hi. destruct (HI i Hi) as (H1 & _ & H3 & (accs & LA & MA & _) & _ & _ & H). split; [exact H1|]. split; [exact H3|]. split; [exists accs; split; assumption|]. intros Ft Hrw.
    destruct (model_of_job (jc_model c) (jc_nelec c) (map (map Fin) (jc_ion_pos c)) (map Fin (jc_ion_charges c)) (theta (params i))) as [w|] eqn:Ew.
    - destruct (H (configured_psi theta c (params i)) Et (C84_ordinary_walkers P1 theta c (params i) (walkers i) w Hw Sj Ft Ew Hrw)) as (A & B & _). split; assumption.
    - exfalso. assert (Z : all_walkers c (walkers i) <> []) by (intros Z; rewrite Z in H1; cbn in H1; lia). destruct (all_walkers c (walkers i)) as [|y l] eqn:Ea; [congruence|]. destruct (Hrw y) as (_ & _ & _ & Q); [rewrite Ea; left; reflexivity|].
      apply Q. unfold configured_psi. rewrite Ew. reflexivity.
  Qed.

  (** Evaluation: every row of local_energies.txt holds (H psi)/psi at the walkers of one evaluation epoch, psi the configured wavefunction with the parameters at the end of training. *)
  Theorem C84_evaluation : forall c key j, well_formed_ions c -> (0 < wc_nchains (jc_walk c))%nat -> build c key = Some j -> 0 < wc_std (jc_walk c) ->
    jc_logdir c <> None -> jc_checkpoint_every c <> Some O -> jc_best_checkpoint_every c <> Some O ->
    0 < wc_std (jc_eval_walk c) -> (2 <= wc_nchains (jc_eval_walk c))%nat -> jc_eval_record_local_energies c = true -> (2 <= jc_eval_nepochs c)%nat ->
    (forall l, run_molecule j None empty_logfiles <> NansDetected l) -> smooth_job c -> ec_type (jc_eval_energy c) = "standard" ->
    exists p (starts : nat -> list (list (list R))) (walkers : nat -> list (padata move_metadata)) l initial,
    run_molecule j None empty_logfiles = Completed (repeat p ndev) l /\
    (exists accs, length accs = wc_nburn (jc_eval_walk c) /\ metropolis (log_psi_of_walker theta c) p accs initial (starts O)) /\
    length (lf_rows l) = jc_eval_nepochs c /\ lf_stats l = [summary (lf_rows l)] /\
    forall i, (i < jc_eval_nepochs c)%nat ->
      length (all_walkers c (walkers i)) = wc_nchains (jc_eval_walk c) /\ starts (S i) = map pos (walkers i) /\
      (exists accs, length accs = wc_nsteps (jc_eval_walk c) /\ metropolis (log_psi_of_walker theta c) p accs (starts i) (map pos (walkers i))) /\
      (finite_params (theta p) -> regular_walkers theta c p (walkers i) ->
       let E := walkers_energies c (configured_psi theta c p) (walkers i) in
       nth_error (lf_rows l) i = Some (map Fin E) /\ nth_error (lines_of (lf_eval l) "energy") i = Some (Fin (lmean E)) /\ nth_error (lines_of (lf_eval l) "variance") i = Some (Fin (lvar E))).
  Proof.
    intros c key j Hw Hn Hb Hs HL HE HB He1 He2 He3 He4 Hnn Sj Et.
    destruct (C78_evaluation g choice perm_of split_n device_keys ndev theta init_params grad_p grad_px opt_init opt_apply kfac has_nan param_l1_norm summary Hg Hc Hdk Hnd c key j Hw Hn Hb Hs HL HE HB He1 He2 He3 He4 Hnn)
      as (p & starts & walkers & l & initial & E & HM & _ & _ & HR & HS & _ & _ & H).
    exists p, starts, walkers, l, initial. split; [exact E|]. split; [exact HM|]. split; [exact HR|]. split; [exact HS|]. intros i Hi. destruct (H i Hi) as (H1 & _ & H3 & H4 & H5). split; [exact H1|]. split; [exact H3|]. split; [exact H4|]. intros Ft Hrw.
    destruct (model_of_job (jc_model c) (jc_nelec c) (map (map Fin) (jc_ion_pos c)) (map Fin (jc_ion_charges c)) (theta p)) as [w|] eqn:Ew.
    - exact (H5 (configured_psi theta c p) Et (C84_ordinary_walkers P1 theta c p (walkers i) w Hw Sj Ft Ew Hrw)).
    - exfalso. assert (Z : all_walkers c (walkers i) <> []) by (intros Z; rewrite Z in H1; cbn in H1; lia). destruct (all_walkers c (walkers i)) as [|y l'] eqn:Ea; [congruence|]. destruct (Hrw y) as (_ & _ & _ & Q); [rewrite Ea; left; reflexivity|].
      apply Q. unfold configured_psi. rewrite Ew. reflexivity.
  Qed.
End Jobs.
Print Assumptions C84_training.
Print Assumptions C84_evaluation.

(** Every model type of the shipped configuration is smooth. *)
Theorem C84_shipped : forall t, In t model_types -> smooth_model (shipped_sections t).
Proof.
  intros t Ht. unfold model_types in Ht. cbn [In] in Ht. unfold smooth_model. destruct Ht as [<-|[<-|[<-|[<-|[<-|[<-|[]]]]]]].
  - left. split; [reflexivity|left; reflexivity].
  - right; left. split; [reflexivity|left; reflexivity].
  - do 2 right; left. split; [reflexivity|left; reflexivity].
  - do 3 right; left. split; reflexivity.
  - do 4 right; left. split; reflexivity.
  - do 5 right. reflexivity.
Qed.
Print Assumptions C84_shipped.

(** LiH as shipped, at electron positions of different heights: smooth for all finite parameters, the embedded-particle and explicitly antisymmetrised models with their extra conditions. *)
Lemma coordinate_apart d k a b : (k < d)%nat -> a k <> b k -> soft_distance d 0 a b <> 0.
Proof.
  intros Hk H Z. unfold soft_distance, distance in Z. assert (P : forall c, (c < d)%nat -> 0 <= (a c - b c) ^ 2) by (intros c _; apply pow2_ge_0). pose proof (Rsum_nonneg d _ P) as Q.
  apply sqrt_eq_0 in Z; [|pose proof (pow2_ge_0 (sqrt (Rsum d (fun c => (a c - b c) ^ 2)))); cbn in *; lra]. rewrite pow2_sqrt in Z by exact Q.
  assert (S0 : Rsum d (fun c => (a c - b c) ^ 2) = 0) by (cbn in *; lra). pose proof (Rsum_zero_terms d _ P S0 k Hk) as S1. cbn in S1. apply H. nra.
Qed.
Definition lih_electrons : nat -> nat -> R := fun i k => match k with 2%nat => INR i + 2 | _ => 0 end.
Definition lih_at : list (list R) := [[0; 0; -1]; [0; 0; 1]].
Example C84_shipped_example : forall t theta, In t model_types -> finite_params theta -> exists w, model_of_job (shipped_sections t) [2; 2]%nat (map (map Fin) lih_at) (map Fin [1; 3]) theta = Some w /\
  (hidden_particles_apart w (map (map Fin) lih_at) (position_array 4 3 lih_electrons) -> jastrow_features_nonzero w (position_array 4 3 lih_electrons) -> smooth_at 4 3 (psi_at w 4 3) lih_electrons) /\
  (In t ["ferminet"; "extended_orbital_matrix_ferminet"; "orbital_cofactor_net"; "per_particle_dets_net"] -> smooth_at 4 3 (psi_at w 4 3) lih_electrons).
Proof.
  intros t th Ht Ft. destruct (shipped_built t 2 2 (map (map Fin) lih_at) (map Fin [1; 3]) th Ht eq_refl ltac:(discriminate)) as (w & Ew). exists w. split; [exact Ew|].
  assert (N1 : no_coincidence 3 0 4 lih_electrons) by (intros i j _ _ Nij; apply (coordinate_apart 3 2); [lia|]; cbn; intros Z; apply Nij, INR_eq; lra).
  assert (N2 : no_ion_coincidence 3 0 4 2 lih_electrons (fun j k => nth k (nth j lih_at []) 0)).
  { intros i j _ Hj. apply (coordinate_apart 3 2); [lia|]. cbn [lih_electrons]. pose proof (pos_INR i). destruct j as [|[|j]]; [cbn; lra|cbn; lra|lia]. }
  assert (G : hidden_particles_apart w (map (map Fin) lih_at) (position_array 4 3 lih_electrons) -> jastrow_features_nonzero w (position_array 4 3 lih_electrons) -> smooth_at 4 3 (psi_at w 4 3) lih_electrons).
  { intros G1 G2. apply (C84_smooth (shipped_sections t) [2; 2]%nat lih_at [1; 3] th w 3 lih_electrons); try assumption; [apply C84_shipped; exact Ht|cbn; lia|repeat constructor; lia|repeat constructor|apply shipped_finite]. }
  split; [exact G|]. intros Hi. apply G.
  - intros e z s -> _. exfalso. cbn [In] in Hi. destruct Hi as [<-|[<-|[<-|[<-|[]]]]]; discriminate Ew.
  - intros e row -> _. exfalso. cbn [In] in Hi. destruct Hi as [<-|[<-|[<-|[<-|[]]]]]; discriminate Ew.
Qed.
(** The extra conditions can be met: a hidden particle of each spin, at 5 and 6, on the line of the example job; a Jastrow factor of the features x1 and x2 themselves. *)
Definition line_hidden_sections : model_sections :=
  Build_model_sections "embedded_particle_ferminet" line_ferminet (Build_hidden_config line_ferminet [1; 1]%nat true flat_streams (default_backflow []) "orthogonal" "normal" true) default_hidden default_antieq default_antieq default_explicit.
Definition line_explicit_sections : model_sections :=
  Build_model_sections "explicit_antisym" line_ferminet default_hidden default_hidden default_antieq default_antieq
    (Build_explicit_config flat_streams (default_backflow []) "generic" 1 8 2 "orthogonal" "normal" "tanh" true (Build_jastrow_config "backflow_based" "ones" (Fin 1) true false (default_backflow []))).
Definition zero_block : block_params.
Proof. constructor; intros; exact (Fin 0). Defined.
Definition zero_resnet : resnet_params.
Proof. constructor; intros; try exact (Fin 0); split; intros; exact (Fin 0). Defined.
Definition line_finite (p : R) : model_params :=
  Build_model_params (fun _ => zero_block) (fun _ => zero_block) (fun _ => Build_orbital_params (fun _ _ => Fin 0) (fun _ => Fin 1) (fun _ => Fin p) (fun _ _ _ => Fin 0) (fun _ _ => Fin 1))
    (fun s => (fun _ _ => Fin 0, fun _ => Fin (5 + INR s))) zero_resnet (fun _ _ => zero_resnet) (fun _ _ => Fin 0) (Fin 0) (fun _ => Fin 0) (Fin 0).
Lemma line_params_finite p : finite_params (line_finite p).
Proof. unfold finite_params, finite_block, finite_orbital, finite_resnet. cbn. repeat split. Qed.
Definition two_on_line (a b : R) : nat -> nat -> R := fun i _ => match i with O => a | _ => b end.
Example C84_conditions_example : forall p, (exists w, model_of_job line_hidden_sections [1; 1]%nat [[Fin 0]] [Fin 2] (line_finite p) = Some w /\ hidden_particles_apart w [[Fin 0]] (position_array 2 1 (two_on_line 1 2))) /\
  (exists w, model_of_job line_explicit_sections [1; 1]%nat [[Fin 0]] [Fin 2] (line_finite p) = Some w /\ jastrow_features_nonzero w (position_array 2 1 (two_on_line 1 2))).
Proof.
  intros p. split; eexists; (split; [reflexivity|]).
  - intros e z s [= <-] Hz. cbn in Hz. injection Hz as Hz _.
    assert (K : z = [[Fin 1]; [Fin 5]; [Fin 2]; [Fin 6]]) by (rewrite <- Hz; clear Hz; destruct (Req_EM_T 1 0) as [Z|_]; [exfalso; lra|];
      repeat (destruct (Rlt_dec _ 0) as [Z|_]; [exfalso; lra|]); rewrite !softened_zero by apply sqrt_pos; cbn; destruct (Req_EM_T 1 0) as [Z|_]; [exfalso; lra|]; cbn; rewrite !Rmult_0_r, !Rplus_0_r, !Rplus_0_l; replace (5 + 1) with 6 by lra; reflexivity). clear Hz. subst z. split.
    + repeat constructor; cbn; intros H; repeat destruct H as [H|H]; try contradiction; injection H; intros; lra.
    + intros a Ha [<-|[]]. cbn in Ha. repeat destruct Ha as [Ha|Ha]; try contradiction; injection Ha; intros; lra.
  - intros e row [= <-] Hr. cbn in Hr. destruct Hr as [<-|[<-|[]]]; eexists; (split; [left; reflexivity|]); cbn; intros Z; injection Z; intros; lra.
Qed.
(** The example job, with these parameters: it is smooth and starts, and every set of walkers at different places, none at the ion, is regular. *)
Lemma line_finite_model p w : model_of_job line_sections [1; 1]%nat [[Fin 0]] [Fin 2] (line_finite p) = Some w -> forall a b, log_psi w [[Fin a]; [Fin b]] = Some (Fin (ln (envelope_at p (a - 0) * envelope_at p (b - 0)))).
Proof. intros E. destruct (line_model 0 [Fin 2] p) as (w' & E' & V). assert (Z : Some w = Some w') by (rewrite <- E, <- E'; reflexivity). apply some_inj in Z. subst w'. exact V. Qed.
Lemma line_smooth : smooth_job line_config.
Proof.
  split; [left; split; [reflexivity|left; reflexivity]|]. split; [cbn; lia|]. split; [repeat constructor; lia|]. split.
  - unfold finite_sections, finite_net_config, finite_hidden_config, finite_antieq_config, finite_net_config, finite_backflow_config. cbn. repeat split.
  - intros i j Hi Hj Ne. cbn in Hi, Hj. lia.
Qed.
Definition line_finite_job := build_job ex_prng ex_choice (fun _ i => i) (fun k n => repeat k n) (fun k => [k; S k]) 2 line_finite (fun _ _ => 1) line_grad (fun f p i => NaN) (fun _ _ => tt) line_step line_kfac (fun _ => false)
  (fun p => Fin (Rabs p)) (fun rows => rows).
Example C84_example : (forall key, exists j, line_finite_job line_config key = Some j) /\ smooth_job line_config /\ ec_type (jc_energy line_config) = "standard" /\
  (forall p datas, finite_params (line_finite p) /\
     ((forall y, In y (all_walkers line_config datas) -> y 0%nat 0%nat <> 0 /\ y 1%nat 0%nat <> 0 /\ y 0%nat 0%nat <> y 1%nat 0%nat) -> regular_walkers line_finite line_config p datas)) /\
  regular_walkers line_finite line_config 1 [Build_padata [[1; 2]; [-1; 3]] [] (Build_move_metadata 1 0 0)].
Proof.
  assert (G : forall p datas, (forall y, In y (all_walkers line_config datas) -> y 0%nat 0%nat <> 0 /\ y 1%nat 0%nat <> 0 /\ y 0%nat 0%nat <> y 1%nat 0%nat) -> regular_walkers line_finite line_config p datas).
  { intros p datas H y Hy. destruct (H y Hy) as (H0 & H1 & H2). split; [|split; [|split]].
    - intros i j Hi Hj Ne. change (electron_count line_config) with 2%nat in *. apply (coordinate_apart 1 0); [lia|]. destruct i as [|[|i]], j as [|[|j]]; try lia; [exact H2|intros Z; apply H2; symmetry; exact Z].
    - intros i j Hi Hj. change (electron_count line_config) with 2%nat in *. change (length (jc_ion_pos line_config)) with 1%nat in Hj. apply (coordinate_apart 1 0); [lia|]. destruct j as [|j]; [|lia]. cbn. destruct i as [|[|i]]; [exact H0|exact H1|lia].
    - intros w Ew. cbn in Ew. apply some_inj in Ew. subst w. split; [intros e z s [=]|intros e row [=]].
    - intros Z. unfold configured_psi in Z. destruct (model_of_job _ _ _ _ _) as [w|] eqn:Ew; [|discriminate Ew]. pose proof (f_equal Rabs Z) as Z'. rewrite Rabs_R0 in Z'.
      destruct line_smooth as (S1 & S2 & S3 & S4 & _). destruct (C84_modulus _ _ _ _ _ w (space_dim line_config) y Ew S2 S3 (proj1 (proj2 line_ions)) S4 (line_params_finite p)) as (_ & Em). unfold electron_count in Z'. rewrite Em in Z'. clear Em.
      change (position_array (list_sum (jc_nelec line_config)) (space_dim line_config) y) with [[Fin (y 0%nat 0%nat)]; [Fin (y 1%nat 0%nat)]] in Z'. rewrite (line_finite_model p w Ew) in Z'. revert Z'. apply Rgt_not_eq, exp_pos. }
  split; [intros key; apply C78_accepted; [exact ex_prng_good|exact ex_choice_good|reflexivity|lia|exact line_ions|cbn; lia|exact line_evaluates|exact line_accepted]|]. split; [exact line_smooth|]. split; [reflexivity|]. split; [intros p datas; split; [apply line_params_finite|apply G]|].
  apply G. intros y Hy. cbn in Hy. destruct Hy as [<-|[<-|[]]]; unfold electrons_of_walker; cbn; lra.
Qed.
