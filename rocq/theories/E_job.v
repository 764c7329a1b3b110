(** * A small job: two electrons of opposite spin and one ion on a line, a FermiNet with one envelope parameter *)
From Coq Require Import String Reals List Bool Arith Lia Lra FunctionalExtensionality.
From Coquelicot Require Import Coquelicot.
From Verif Require Import XReal Rsum M_io M_vmc M_mcmc M_physics M_setup M_slog M_models M_antisym M_construct M_dispatch M_optax M_run M_start M_job
  S_models S_antisym S_construct S_dispatch S_mcmc S_start S_physics S_setup S_job P_antieq P_models P_construct P_slog Det T_construct T_dispatch T_shift T_optax T_start.
Import ListNotations.
Local Open Scope R_scope.
Local Open Scope string_scope.

Definition line_ferminet : ferminet_config :=
  Build_ferminet_config flat_streams (default_backflow []) 1 "orthogonal" "ones" "ones" (Fin 1) "normal" true true false default_resnet "parallel_even" false.
Definition line_sections : model_sections := Build_model_sections "ferminet" line_ferminet default_hidden default_hidden default_antieq default_antieq default_explicit.
Definition no_block : block_params.
Proof. constructor; intros; exact NaN. Defined.
Definition no_resnet : resnet_params.
Proof. constructor; intros; try exact NaN; split; intros; exact NaN. Defined.
(** The orbital of each spin is exp (-(sqrt ((p r)^2 + 1) - 1)), r the distance from the ion. *)
Definition line_params (p : R) : model_params :=
  Build_model_params (fun _ => no_block) (fun _ => no_block) (fun _ => Build_orbital_params (fun _ _ => Fin 0) (fun _ => Fin 1) (fun _ => Fin p) (fun _ _ _ => Fin 0) (fun _ _ => Fin 1))
    (fun _ => (fun _ _ => Fin 0, fun _ => Fin 0)) no_resnet (fun _ _ => no_resnet) (fun _ _ => Fin 0) (Fin 0) (fun _ => Fin 0) (Fin 0).
Definition line_energy : energy_config := Build_energy_config "standard" [] [] 1 0 "mean" true 4.
Definition line_walk : walk_cfg := {| wc_nchains := 4; wc_nburn := 2; wc_nsteps := 3; wc_nmoves := 5; wc_std := 1 / 4 |}.
Definition line_config : job_config :=
  {| jc_ion_pos := [[0]]; jc_ion_charges := [2]; jc_nelec := [1; 1]%nat; jc_ei_softening := 1; jc_ee_softening := 1; jc_model := line_sections; jc_walk := line_walk;
     jc_energy := line_energy; jc_optimizer := default_optimizer "sgd"; jc_record_param_l1_norm := true; jc_nepochs := 6; jc_logdir := Some "logs"; jc_checkpoint_every := Some 2%nat;
     jc_best_checkpoint_every := Some 3%nat; jc_checkpoint_dir := "checkpoints"; jc_checkpoint_variance_scale := 10; jc_check_for_nans := false; jc_record_amplitudes := true; jc_nhistory_max := 200;
     jc_eval_walk := line_walk; jc_eval_energy := line_energy; jc_eval_use_training_data := false; jc_eval_record_amplitudes := false; jc_eval_record_local_energies := true; jc_eval_nepochs := 3 |}.

Definition envelope_at (p r : R) : R := exp (- (sqrt ((r * p) * (r * p) + 1) - 1)).
Lemma line_soft r : softened (Fin 1) (Fin (Rabs r)) = Fin (sqrt (r * r + 1) - 1).
Proof.
  unfold softened. cbn. replace (Rabs r * Rabs r + 1 * 1) with (r * r + 1) by (pose proof (Rsqr_abs r) as H; unfold Rsqr in H; rewrite <- H; ring). destruct (Rlt_dec (r * r + 1) 0) as [H|_]; [pose proof (Rle_0_sqr r); unfold Rsqr in *; lra|]. reflexivity.
Qed.
Lemma line_entry r s : xmul (xadd (xadd (xmul (Fin r) (Fin 0)) (xadd (xmul (softened (Fin 0) (norm [Fin r])) (Fin 0)) (Fin 0))) (Fin 1))
  (xadd (xmul (xexp (xopp (softened (Fin 1) (norm [xmul (Fin r) (Fin s)])))) (Fin 1)) (Fin 0)) = Fin (envelope_at s r).
Proof. cbn [xmul]. rewrite !flat_norm, line_soft, flat_soft. cbn. f_equal. unfold envelope_at. ring. Qed.
Lemma line_model ions q p : exists w, model_of_job line_sections [1; 1]%nat [[Fin ions]] q (line_params p) = Some w /\
  forall a b, log_psi w [[Fin a]; [Fin b]] = Some (Fin (ln (envelope_at p (a - ions) * envelope_at p (b - ions)))).
Proof.
  eexists. split; [reflexivity|]. intros a b. unfold log_psi. cbn [slog_psi]. unfold ferminet_call. cbn [fn_split]. change (get_spin_split [1; 1]%nat) with [1%nat].
  assert (D : forall t, xsub (Fin t) (Fin ions) = Fin (t - ions)) by reflexivity.
  match goal with |- context [ferminet_orbital_matrices ?m _ _] => assert (M : ferminet_orbital_matrices m [[Fin a]; [Fin b]] (At [1%nat]) = Some [[fin2 [[envelope_at p (a - ions)]]]; [fin2 [[envelope_at p (b - ions)]]]]) end.
  { unfold ferminet_orbital_matrices. cbn -[norm softened xdiv xsqrt xmul xadd xexp envelope_at]. change (Pos.to_nat 1) with 1%nat. cbn -[norm softened xdiv xsqrt xmul xadd xexp envelope_at].
    rewrite !D, !line_entry. reflexivity. }
  rewrite M. cbn [bind_opt]. unfold psi_from_orbitals. cbv zeta. cbn [fn_full_det fn_det_fn fn_ndet]. change (fc_full_det (ms_ferminet line_sections)) with false. change (fc_ndeterminants (ms_ferminet line_sections)) with 1%nat. cbv iota.
  unfold determinant_slices. cbn [seq map nth]. unfold slogdet_product. cbn [map]. unfold linalg_slogdet. rewrite !(det_fin2 1) by (split; [reflexivity|repeat constructor]). rewrite !det1.
  cbn [option_map sequence bind_opt reduce fold_left]. rewrite !to_slog_fin, slog_multiply_of. unfold slog_sum_over_axis.
  set (e := envelope_at p (a - ions) * envelope_at p (b - ions)). assert (He : 0 < e) by (apply Rmult_lt_0_compat; apply exp_pos).
  change [slog_of e] with (map slog_of [e]). rewrite log_linear_exp_of by (exists e; split; [left; reflexivity|lra]).
  replace (lsum [e]) with e by (cbn; ring). unfold slog_of. destruct (Req_EM_T e 0); [lra|]. cbn. rewrite Rabs_pos_eq by lra. reflexivity.
Qed.
(** The wavefunction. *)
Definition line_psi (p : R) (y : positions) : R := envelope_at p (y 0%nat 0%nat) * envelope_at p (y 1%nat 0%nat).
Lemma line_log_psi p y : log_psi_at line_params line_config p y = Fin (ln (line_psi p y)).
Proof.
  unfold log_psi_at. change (fin_array (jc_ion_pos line_config)) with [[Fin 0]]. change (jc_model line_config) with line_sections. change (jc_nelec line_config) with [1; 1]%nat.
  destruct (line_model 0 (map Fin (jc_ion_charges line_config)) p) as (w & -> & V).
  change (rows_of (jc_n line_config) (jc_d line_config) y) with [[Fin (y 0%nat 0%nat)]; [Fin (y 1%nat 0%nat)]]. rewrite V. unfold line_psi. rewrite !Rminus_0_r. reflexivity.
Qed.
Lemma line_psi_pos p y : 0 < line_psi p y.
Proof. apply Rmult_lt_0_compat; apply exp_pos. Qed.
Lemma line_no_nodes p : no_nodes (log_psi_of_walker line_params line_config) p.
Proof. intros x. exists (ln (line_psi p (electrons_of_walker line_config x))). exact (line_log_psi p _). Qed.
Lemma line_modulus p y : modulus line_params line_config p y = line_psi p y.
Proof. unfold modulus. rewrite line_log_psi. apply exp_ln, line_psi_pos. Qed.
Lemma line_evaluates : model_evaluates line_config.
Proof.
  intros th x Hx. change (fin_array (jc_ion_pos line_config)) with [[Fin 0]]. change (jc_model line_config) with line_sections. change (jc_nelec line_config) with [1; 1]%nat.
  destruct (proj2 (C72_accepted line_sections [1; 1]%nat [[Fin 0]] (map Fin (jc_ion_charges line_config)) th)) as (w & Ew).
  { left. split; [reflexivity|]. split.
    - unfold good_ferminet. repeat split; [repeat (constructor; [cbn; tauto|]); constructor|cbn; tauto|right; left; reflexivity|discriminate|discriminate|discriminate].
    - unfold good_backflow, known_kernel_init, known_bias_init, known_activation. cbn. repeat split; [repeat (constructor; [tauto|]); constructor|repeat (constructor; [tauto|]); constructor|left; reflexivity|intros []]. }
  exists w. destruct (C72_ferminet_defined line_sections [1; 1]%nat [[Fin 0]] (map Fin (jc_ion_charges line_config)) th w 1 x) as (p & Ep); try reflexivity; try exact Ew; try exact Hx; try (cbn; lia).
  { split; [reflexivity|]. repeat constructor. }
  exists (snd p). split; [exact Ew|]. unfold log_psi. rewrite Ep. reflexivity.
Qed.
Lemma envelope_derivative p r t : is_derive (fun t => envelope_at p (r + t)) t (- ((r + t) * p * p / sqrt (((r + t) * p) * ((r + t) * p) + 1)) * envelope_at p (r + t)).
Proof.
  unfold envelope_at. assert (H : 0 < ((r + t) * p) * ((r + t) * p) + 1) by (pose proof (Rle_0_sqr ((r + t) * p)); unfold Rsqr in *; lra).
  auto_derive; [exact H|]. unfold Rminus. set (q := sqrt _) in *. assert (Hq : q <> 0) by (apply Rgt_not_eq, sqrt_lt_R0; exact H). generalize (exp (- (q + - (1)))). intros e. revert Hq. generalize q. intros q' Hq. cbn in t |- *. field. exact Hq.
Qed.
(** It is smooth everywhere, and softening keeps the potential finite: all points are ordinary. *)
Lemma line_ordinary p datas : ordinary_walkers line_params line_config p (line_psi p) datas.
Proof.
  split; [intros y; rewrite line_modulus, Rabs_pos_eq; [reflexivity|apply Rlt_le, line_psi_pos]|]. intros y _. cbv zeta.
  assert (SQ : forall d x z, soft_distance d 1 x z <> 0).
  { intros d x z. unfold soft_distance. apply Rgt_not_eq, sqrt_lt_R0. pose proof (pow2_ge_0 (distance d x z)). lra. }
  split; [intros x z H; unfold line_psi; rewrite !H by (cbn; lia); reflexivity|]. split; [apply Rgt_not_eq, line_psi_pos|]. split.
  - intros i c Hi Hc'. assert (c = O) as -> by (cbn in Hc'; lia). 
    assert (SM : forall a r, (forall t, ex_derive (fun t => a * envelope_at p (r + t)) t) /\ ex_derive (Derive (fun t => a * envelope_at p (r + t))) 0).
    { intros a r. assert (ID : forall t, is_derive (fun t => a * envelope_at p (r + t)) t (a * (- ((r + t) * p * p / sqrt (((r + t) * p) * ((r + t) * p) + 1)) * envelope_at p (r + t)))).
      { intros t. apply (is_derive_scal (fun t => envelope_at p (r + t))). apply envelope_derivative. }
      split; [intros t; eexists; apply ID|]. 
      replace (Derive (fun t => a * envelope_at p (r + t))) with (fun t => a * (- ((r + t) * p * p / sqrt (((r + t) * p) * ((r + t) * p) + 1)) * envelope_at p (r + t))) by (apply functional_extensionality; intros t; symmetry; apply is_derive_unique, ID).
      unfold envelope_at. auto_derive. assert (H : 0 < ((r + 0) * p) * ((r + 0) * p) + 1) by (pose proof (Rle_0_sqr ((r + 0) * p)); unfold Rsqr in *; lra).
      repeat split; try exact H. apply Rgt_not_eq, sqrt_lt_R0. exact H. }
    destruct i as [|[|i]]; [| |cbn in Hi; lia].
    + assert (EF : (fun t => line_psi p (displaced y 0 0 t)) = (fun t => envelope_at p (y 1%nat 0%nat) * envelope_at p (y 0%nat 0%nat + t))).
      { apply functional_extensionality. intros t. unfold line_psi, displaced. cbn. ring. }
      rewrite EF. destruct (SM (envelope_at p (y 1%nat 0%nat)) (y 0%nat 0%nat)) as (S1 & S2). split; [apply filter_forall; intros t; change (ex_derive (fun t : R => line_psi p (displaced y 0 0 t)) t); rewrite EF; exact (S1 t)|exact S2].
    + assert (EF : (fun t => line_psi p (displaced y 1 0 t)) = (fun t => envelope_at p (y 0%nat 0%nat) * envelope_at p (y 1%nat 0%nat + t))).
      { apply functional_extensionality. intros t. unfold line_psi, displaced. cbn. ring. }
      rewrite EF. destruct (SM (envelope_at p (y 0%nat 0%nat)) (y 1%nat 0%nat)) as (S1 & S2). split; [apply filter_forall; intros t; change (ex_derive (fun t : R => line_psi p (displaced y 1 0 t)) t); rewrite EF; exact (S1 t)|exact S2].
  - split; [intros i k _ _; apply SQ|]. split; [intros i k _ _ _; apply SQ|]. intros i k Hi Hk Hne. cbn in Hi, Hk. lia.
Qed.
