(** * Every random number of a job is drawn with a key of its own: C79 *)
From Coq Require Import String Reals List Bool Arith Lia Lra.
From Verif Require Import XReal Rsum M_io M_vmc M_files M_mcmc M_distribute M_energy M_physics M_setup M_models M_construct M_dispatch M_keys M_optim M_optax M_run M_start M_job
  S_models S_mcmc S_vmc S_files S_optim S_run S_start S_optax S_energy S_physics S_setup S_job S_jobkeys P_vmc2 P_vmc3 P_files P_run P_job P_jobrun P_jobkeys E_job T_optax T_start T_run T_job.
Import ListNotations.
Local Open Scope R_scope.

(** For a given configuration, seed, process and number of devices there is a key for every draw; the keys of different draws are unrelated (neither is derived
    from the other), and everything random in the job is the generator applied to the key of that draw:
    - the ions the electrons start at, the noise around them, and the parameters the model starts with;
    - the proposals and the decisions of every Metropolis step (burning, training, burning before evaluation, evaluation) on every device;
    - the first state of the KFAC optimiser and the parameter update of every epoch.
    Keys are as in C21: the seed, followed by the splits and folds applied to it; devices get their keys by folding in the process and splitting. *)
Theorem C79_random_numbers : forall (c : job_config) (seed : key) (proc ndev : nat), exists key_of : draw -> key,
  (forall d d', draw_of_job ndev c d -> draw_of_job ndev c d' -> d <> d' -> unrelated (key_of d) (key_of d')) /\
  forall (P1 S1 J : Type) (g : prng key) (choice : choice_fn key) perm_of (theta : P1 -> model_params) (init_params : key -> list nat -> P1) grad_p grad_px
    (opt_init : optimiser -> P1 -> S1) opt_apply (kfac : kfac_optimizer P1 S1 key) has_nan param_l1_norm (summary : list (list xr) -> J) j,
  let estimate := energy_and_grad perm_of split_n theta grad_p grad_px c in
  let psi := log_psi_of_walker theta c in
  let each_device {A} (f : nat -> A) := map f (seq 0 ndev) in
  let walks m p n := walk_drawn g ndev psi p (fun t dv => key_of (Proposals (m t) dv)) (fun t dv => key_of (Decisions (m t) dv)) n in
  let created evaluation n initial := length initial = ndev /\ Forall (fun l => length l = (n / ndev)%nat) initial /\
    concat initial = new_walkers c n (fun i => ions_drawn choice c (key_of (Ions evaluation i))) (normal g (key_of (Noise evaluation)) (repeat (electron_count c * space_dim c)%nat n)) in
  good_prng g -> good_choice choice -> (forall k, split2 g k = (SplitOp 2 0 :: k, SplitOp 2 1 :: k)) -> (0 < ndev)%nat ->
  well_formed_ions c -> (0 < wc_nchains (jc_walk c))%nat -> 0 < wc_std (jc_walk c) -> 0 < wc_std (jc_eval_walk c) ->
  jc_logdir c <> None -> jc_checkpoint_every c <> Some O -> jc_best_checkpoint_every c <> Some O ->
  build_job g choice perm_of split_n (device_keys proc ndev) ndev theta init_params grad_p grad_px opt_init opt_apply kfac has_nan param_l1_norm summary c seed = Some j ->
  exists o (params : nat -> P1) (opts : nat -> S1) (walkers : nat -> list (padata move_metadata)) initial r,
    choose_optimiser (jc_optimizer c) = Chosen o /\ (r <= jc_nepochs c)%nat /\
    created false (wc_nchains (jc_walk c)) initial /\
    params O = init_params (key_of FirstParameters) [(electron_count c * space_dim c)%nat] /\
    opts O = match o with Kfac _ _ => kf_init kfac o (params O) (each_device (fun dv => key_of (FirstOptimiserState dv))) initial | _ => opt_init o (params O) end /\
    walks Burning (params O) (wc_nburn (jc_walk c)) initial (map pos (walkers O)) /\
    (forall e, (e < r)%nat -> walks (Training e) (params e) (wc_nsteps (jc_walk c)) (map pos (walkers e)) (map pos (walkers (S e))) /\
       update_drawn estimate theta grad_p opt_apply kfac c o (each_device (fun dv => key_of (Update e dv))) (params e) (opts e) (map pos (walkers (S e))) (params (S e)) (opts (S e))) /\
    (exists k nans cks ms, train j None = Finished (repeat (params r) ndev) (repeat (opts r) ndev) (walkers r) k nans cks ms /\
       forall w, In w cks -> let e := c_epoch (snd w) in (e < r)%nat /\ c_params (snd w) = repeat (params e) ndev /\ c_opt (snd w) = repeat (opts e) ndev /\ c_data (snd w) = walkers e) /\
    forall l, run_molecule j None empty_logfiles = Completed (repeat (params r) ndev) l -> r = jc_nepochs c /\
      exists (samples : nat -> list (padata move_metadata)) initial',
        (new_walkers_for_evaluation c -> created true (wc_nchains (jc_eval_walk c)) initial') /\ (~ new_walkers_for_evaluation c -> initial' = map pos (walkers r)) /\
        walks EvalBurning (params r) (wc_nburn (jc_eval_walk c)) initial' (map pos (samples O)) /\
        (forall e, walks (Evaluating e) (params r) (wc_nsteps (jc_eval_walk c)) (map pos (samples e)) (map pos (samples (S e)))) /\
        (jc_eval_record_local_energies c = true -> length (lf_rows l) = jc_eval_nepochs c /\
         forall e f, (e < jc_eval_nepochs c)%nat -> ec_type (jc_eval_energy c) = "standard"%string -> ordinary_walkers theta c (params r) f (samples (S e)) ->
           nth_error (lf_rows l) e = Some (map Fin (walkers_energies c f (samples (S e))))).
Proof.
  intros c seed proc ndev. exists (key_of c seed proc ndev). split; [apply keys_unrelated|].
  intros P1 S1 J g choice perm_of theta init_params grad_p grad_px opt_init opt_apply kfac has_nan l1 summary j estimate psi each_device walks created Hg Hc Hs Hnd Hw Hch Hstd Hestd HL HE HB Hb.
  assert (Hdk : forall k, length (device_keys proc ndev k) = ndev) by (intros k; unfold device_keys, split_n; rewrite map_length; apply seq_length).
  destruct (built_ok g choice perm_of split_n (device_keys proc ndev) ndev theta init_params grad_p grad_px opt_init opt_apply kfac has_nan l1 summary c seed j Hg Hc Hdk Hnd Hw Hch Hb HL HE HB) as (Hok & _).
  pose proof Hok as (Hv & Hl & Hga & Hmc & Hd & Hss).
  destruct (keyed_training c seed proc ndev g choice perm_of split_n theta init_params grad_p grad_px opt_init opt_apply kfac has_nan l1 summary j Hg Hc Hs Hnd Hw Hch Hb Hstd)
    as (o & params & opts & ds & initial & Ho & I1 & I2 & I3 & I4 & I5 & I6 & I7).
  destruct (fields g choice perm_of split_n (device_keys proc ndev) ndev theta init_params grad_p grad_px opt_init opt_apply kfac has_nan l1 summary c seed j Hg Hc Hdk Hnd Hw Hch Hb)
    as (p0 & data & keys & o' & s0 & keys0 & _ & _ & _ & _ & _ & _ & _ & _ & _ & EJ).
  destruct (logdir (j_cfg j)) as [ld|] eqn:El; [|congruence].
  destruct (j_init j) as [[[pi oi] di] ki] eqn:EI.
  assert (EX : after_burn_in j = (pi, oi, fst (j_burn j pi di ki), snd (j_burn j pi di ki))) by (unfold after_burn_in; rewrite EI; destruct (j_burn j pi di ki); reflexivity).
  assert (ET : train j None = vmc_loop (j_walk j) (j_update j) (j_has_nan j) (j_cfg j) 0 (j_nepochs j) pi oi (fst (j_burn j pi di ki)) (snd (j_burn j pi di ki))).
  { unfold train, start_state. rewrite EI. cbn [skip_burn]. destruct (j_burn j pi di ki); reflexivity. }
  destruct (run_description _ _ _ _ (j_walk j) (j_update j) (j_has_nan j) (j_cfg j) ld 0 (j_nepochs j) pi oi (fst (j_burn j pi di ki)) (snd (j_burn j pi di ki)) Hv Hmc El)
    as (r & b & ck & ms & p' & o1 & d' & k' & HR & HX & EV & _).
  destruct (all_writes_are_states _ _ _ _ (j_walk j) (j_update j) (j_has_nan j) (j_cfg j) ld 0 (j_nepochs j) pi oi (fst (j_burn j pi di ki)) (snd (j_burn j pi di ki)) Hv Hmc El)
    as (r2 & b2 & p2 & o3 & d2 & k2 & ck2 & m2 & EV2 & HR2 & HC).
  rewrite EV in EV2. injection EV2 as <- <- <- <- <- <- <-. destruct (RunsFor_unique _ _ _ _ _ _ HR HR2) as [<- _]. clear HR2. rewrite <- EX in *. rewrite Nat.sub_0_r in *.
  assert (Enep : j_nepochs j = jc_nepochs c) by (rewrite EJ; reflexivity). rewrite Enep in *.
  destruct (I7 r) as (Er & Gr & _). rewrite HX in Er. injection Er as -> -> -> ->.
  exists o, params, opts, ds, initial, r. split; [exact Ho|].
  assert (Hr : (r <= jc_nepochs c)%nat) by (destruct HR as [(_ & -> & _)|(_ & i & -> & ? & _)]; lia). split; [exact Hr|].
  split; [split; [exact I1|split; [exact I2|exact I3]]|]. split; [exact I4|]. split; [exact I5|]. split; [exact I6|].
  split. { intros e _. destruct (I7 e) as (_ & _ & W & U). split; [exact W|exact U]. }
  split. { do 4 eexists. split; [rewrite ET; exact EV|]. intros w Hin. cbv zeta. destruct (HC w Hin) as (i & Hi & E). destruct (I7 i) as (Ei & _). rewrite Ei in E. unfold reps in E. rewrite E. cbn [ckpt_of c_epoch c_params c_opt c_data Nat.add]. split; [exact Hi|]. repeat (split; [reflexivity|]). reflexivity. }
  intros l HR'. unfold run_molecule in HR'. rewrite ET, EV in HR'. destruct b; [discriminate|].
  assert (Ern : r = jc_nepochs c) by (destruct HR as [(_ & -> & _)|(Z & _)]; [reflexivity|discriminate]). split; [exact Ern|]. 
  rewrite evaluate_spec in HR' by exact Hga. cbv zeta in HR'. rewrite Ern in Gr.
  destruct (keyed_evaluation c seed proc ndev g choice perm_of split_n theta init_params grad_p grad_px opt_init opt_apply kfac has_nan l1 summary j Hg Hc Hs Hnd Hw Hch Hb (params (jc_nepochs c)) (ds (jc_nepochs c)) Hestd Gr)
    as (evals & initial' & E1 & E2 & E3 & E4).
  rewrite <- Ern in *. exists evals, initial'. split; [exact E1|]. split; [exact E2|]. split; [exact E3|]. split; [intros e; exact (proj1 (E4 e))|].
  intros Hrec. assert (ER : j_record_local_energies j = true) by (rewrite EJ; exact Hrec). unfold eval_files in HR'. cbn [lf_rows start_files empty_logfiles app] in HR'. rewrite ER in HR'.
  assert (LR : lf_rows l = eval_samples j (repeat (params r) ndev) (ds r) (keys_at ndev (root1 c seed proc ndev) (epoch_start c r))).
  { destruct (_ && _); [destruct (load_rows _); [|discriminate]|]; injection HR' as <-; reflexivity. }
  rewrite LR. unfold eval_samples. assert (EN : j_eval_nepochs j = jc_eval_nepochs c) by (rewrite EJ; reflexivity). rewrite EN. split; [rewrite map_length; apply seq_length|].
  intros e f He HT (Hf & Hord). rewrite nth_error_map, (nth_error_nth' _ O) by (rewrite seq_length; exact He). rewrite seq_nth by exact He. cbn [option_map Nat.add]. f_equal.
  rewrite (proj2 (E4 e)). rewrite EJ. cbn [j_local_energies]. rewrite (hd_repeat ndev Hnd). unfold eval_local_energies. rewrite energies_all, map_map.
  transitivity (map (fun x => local_energy_at perm_of theta c (jc_eval_energy c) (params r) x None) (all_walkers c (evals (S e)))).
  - unfold all_walkers. rewrite map_map, concat_map, map_map. reflexivity.
  - apply map_ext_in. intros y Hy. apply standard_at; [exact HT|exact Hf|]. apply Hord. exact Hy.
Qed.
Print Assumptions C79_random_numbers.

(** ** The small job of E_job.v on two devices of process 3, with KFAC and a generator whose numbers depend on the key *)
Definition key_prng : prng key := {| split2 := fun k => (SplitOp 2 0 :: k, SplitOp 2 1 :: k);
  uniform := fun k n => repeat (/ (2 + INR (length k))) n; normal := fun k shape => map (repeat (INR (length k))) shape |}.
Lemma key_prng_good : good_prng key_prng.
Proof.
  constructor; simpl; intros.
  - apply repeat_length.
  - apply repeat_spec in H. subst. pose proof (pos_INR (length k)). split; [left; apply Rinv_0_lt_compat; lra|]. rewrite <- Rinv_1. apply Rinv_lt_contravar; lra.
  - rewrite map_map. rewrite (map_ext _ (fun x => x)); [apply map_id|]. intros; apply repeat_length.
Qed.
Definition key_choice : choice_fn key := fun k n m rep p => if rep then repeat O m else seq 0 m.
Lemma key_choice_good : good_choice key_choice.
Proof.
  unfold key_choice. constructor; intros.
  - destruct rep; [apply repeat_length | apply seq_length].
  - destruct rep; [apply repeat_spec in H1; subst; exact H|]. apply in_seq in H1. destruct H0; [discriminate | lia].
  - apply seq_NoDup.
Qed.
Definition key_kfac : kfac_optimizer R unit key := {| kf_init := fun _ _ _ _ => tt; kf_value_key := fun k => SplitOp 2 1 :: k; kf_step := fun o gr p s _ _ => line_step o gr p s [] [] |}.
Definition kfac_config : job_config := with_optimizer (default_optimizer "kfac") line_config.
Lemma kfac_ions : well_formed_ions kfac_config.
Proof. exact line_ions. Qed.
Example C79_example : forall seed : key, exists j (key_of : draw -> key) params (walkers : nat -> list (padata move_metadata)) l,
  build_job key_prng key_choice (fun _ i => i) split_n (device_keys 3 2) 2 line_params (fun k _ => INR (length k)) line_grad (fun f p i => NaN) (fun _ _ => tt) line_step key_kfac (fun _ => false) (fun p => Fin (Rabs p)) (fun rows => rows) kfac_config seed = Some j /\
  unrelated (key_of (Ions true 3)) (key_of (Proposals (Training 5 2) 1)) /\ unrelated (key_of (Proposals (Training 5 2) 1)) (key_of (Decisions (Training 5 2) 1)) /\
  unrelated (key_of (FirstOptimiserState 0)) (key_of (Update 0 0)) /\
  params O = INR (length (key_of FirstParameters)) /\
  walk_drawn key_prng 2 (log_psi_of_walker line_params kfac_config) (params 5%nat) (fun t dv => key_of (Proposals (Training 5 t) dv)) (fun t dv => key_of (Decisions (Training 5 t) dv)) 3 (map pos (walkers 5%nat)) (map pos (walkers 6%nat)) /\
  run_molecule j None empty_logfiles = Completed (repeat (params 6%nat) 2) l /\ length (lf_rows l) = 3%nat.
Proof.
  intros seed. assert (Hdk : forall k, length (device_keys 3 2 k) = 2%nat) by reflexivity.
  match goal with |- context [build_job ?a1 ?a2 ?a3 ?a4 ?a5 ?a6 ?a7 ?a8 ?a9 ?b1 ?b2 ?b3 ?b4 ?b5 ?b6 ?b7 ?b8 seed] => set (built := build_job a1 a2 a3 a4 a5 a6 a7 a8 a9 b1 b2 b3 b4 b5 b6 b7 b8 seed) end.
  assert (HS : exists j, built = Some j).
  { apply C78_accepted; [exact key_prng_good|exact key_choice_good|exact Hdk|lia|exact kfac_ions|cbn; lia|exact line_evaluates|].
    destruct line_accepted as (A1 & A2 & A3 & _ & A5 & A6). split; [exact A1|]. split; [exact A2|]. split; [exact A3|]. split; [|split; [exact A5|exact A6]].
    split; [cbn; tauto|]. split; [discriminate|]. split; [|discriminate]. intros s Hs. cbn in Hs. injection Hs as <-. unfold known_schedule. cbn. tauto. }
  destruct HS as (j & Ej). destruct (C79_random_numbers kfac_config seed 3 2) as (key_of & HU & H).
  specialize (H _ _ _ _ _ _ _ _ _ _ _ _ _ _ _ _ j key_prng_good key_choice_good (fun k => eq_refl) ltac:(lia) kfac_ions ltac:(cbn; lia) ltac:(cbn; lra) ltac:(cbn; lra) ltac:(discriminate) ltac:(discriminate) ltac:(discriminate) Ej).
  destruct H as (o & params & opts & walkers & initial & r & Ho & Hr & _ & Hp & _ & _ & HT & (k & nans & cks & ms & ET & _) & HE).
  destruct (C78_training _ _ _ _ _ _ _ _ _ _ _ _ _ _ _ _ key_prng_good key_choice_good Hdk ltac:(lia) kfac_config seed j kfac_ions ltac:(cbn; lia) Ej ltac:(cbn; lra) ltac:(discriminate) ltac:(discriminate) ltac:(discriminate))
    as (o' & params' & opts' & starts & walkers' & grads & centred & subkeys & r' & initial' & Ho' & Hr0 & _ & _ & (d & k1 & nans' & ck' & ms' & ET' & _) & HN & _ & Hr' & HC & _).
  rewrite ET in ET'.
  assert (NN : forall l, run_molecule j None empty_logfiles <> NansDetected l).
  { intros l. eapply no_nans; [exact key_prng_good|exact key_choice_good|exact Hdk| |exact kfac_ions|cbn; lia|exact Ej|discriminate|discriminate|discriminate|reflexivity]. lia. }
  pose proof (C78_evaluation _ _ _ _ _ _ _ _ _ _ _ _ _ _ _ _ key_prng_good key_choice_good Hdk ltac:(lia) kfac_config seed j kfac_ions ltac:(cbn; lia) Ej ltac:(cbn; lra) ltac:(discriminate) ltac:(discriminate) ltac:(discriminate)
      ltac:(cbn; lra) ltac:(cbn; lia) eq_refl ltac:(cbn; lia) NN) as (p & sts & w & l & ini & E & _ & _ & _ & HR & _).
  assert (Ep : p = params r).
  { assert (EE : run_molecule j None empty_logfiles = Completed (repeat p 2) l -> repeat p 2 = repeat (params r) 2).
    { unfold run_molecule. rewrite ET. destruct nans; [discriminate|]. rewrite evaluate_spec by (intros Z; pose proof (proj1 (proj2 (proj2 (proj1 (built_ok _ _ _ _ _ _ _ _ _ _ _ _ _ _ _ _ kfac_config seed j key_prng_good key_choice_good Hdk ltac:(lia) kfac_ions ltac:(cbn; lia) Ej ltac:(discriminate) ltac:(discriminate) ltac:(discriminate)))))); contradiction).
      cbv zeta. destruct (_ && _); [destruct (load_rows _); [|discriminate]|]; intros Z; injection Z; intros; subst; reflexivity. }
    specialize (EE E). cbn in EE. injection EE as EE _. exact EE. }
  subst p. destruct (HE l E) as (E6 & _). change (jc_nepochs kfac_config) with 6%nat in E6. subst r.
  exists j, key_of, params, walkers, l. split; [exact Ej|]. split; [apply HU; [split; [left; reflexivity|cbn; lia]|cbn; lia|discriminate]|].
  split; [apply HU; [cbn; lia|cbn; lia|discriminate]|]. split; [apply HU; [split; [reflexivity|lia]|cbn; lia|discriminate]|]. split; [exact Hp|].
  split; [apply (HT 5%nat); lia|]. split; [exact E|exact HR].
Qed.
