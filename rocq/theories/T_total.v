(** * Which wavefunctions have a value and which jobs start: C81 *)
From Coq Require Import String Reals List Bool Arith Lia Lra.
From Verif Require Import XReal Rsum M_io M_vmc M_files M_mcmc M_distribute M_energy M_physics M_setup M_slog M_models M_construct M_dispatch M_optim M_optax M_run M_start M_job
  S_models S_construct S_dispatch S_mcmc S_vmc S_files S_optim S_run S_start S_optax S_energy S_physics S_setup S_job S_total P_models P_construct P_construct2 P_construct3 P_construct4 P_construct5 P_dispatch P_total P_accept E_job T_dispatch T_start T_job.
Import ListNotations.
Local Open Scope R_scope.
Local Open Scope string_scope.

Lemma pairwise_configured c sp ions bs th n k : build_ferminet c sp ions bs th = Some n ->
  (pairwise_ok n k <-> (fc_use_det_resnet c = true -> upper (rc_mode (fc_det_resnet c)) = "PAIRWISE_EVEN" -> fc_full_det c = false /\ k = 2%nat)).
Proof.
  intros En. destruct (ferminet_fields _ _ _ _ _ _ En) as (_ & _ & _ & _ & _ & _ & F7 & F8 & F9 & _). unfold pairwise_ok. rewrite F7, F8.
  assert (Q : fn_mode n = PAIRWISE_EVEN <-> upper (rc_mode (fc_det_resnet c)) = "PAIRWISE_EVEN"); [|tauto].
  revert F9. generalize (upper (rc_mode (fc_det_resnet c))) as u. intros u. unfold determinant_fn_mode.
  destruct (String.eqb_spec u "SIGN_COVARIANCE") as [->|]; [intros [= <-]; split; discriminate|]. destruct (String.eqb_spec u "PARALLEL_EVEN") as [->|]; [intros [= <-]; split; discriminate|].
  destruct (String.eqb_spec u "PAIRWISE_EVEN") as [->|]; [intros [= <-]; split; reflexivity|discriminate].
Qed.
Lemma jastrow_needs c sp ions q th j : build_jastrow c sp ions q th = Some j -> (needs_2e j <-> jc_type c = "two_body_decay" \/ jc_type c = "two_body_decay_and_backflow_based").
Proof.
  unfold build_jastrow. destruct (String.eqb_spec (jc_type c) "one_body_decay") as [E|_].
  { intros H. apply check_some in H. destruct H as (_ & H). injection H as <-. cbn. rewrite E. split; [contradiction|intros [Z|Z]; discriminate]. }
  destruct (String.eqb_spec (jc_type c) "two_body_decay") as [E|_]; [intros H; apply bind_some in H; destruct H as (s & _ & H); injection H as <-; cbn; tauto|].
  destruct (String.eqb_spec (jc_type c) "backflow_based") as [E|_].
  { intros H. apply map_some in H. destruct H as (b & _ & <-). cbn. rewrite E. split; [contradiction|intros [Z|Z]; discriminate]. }
  destruct (String.eqb_spec (jc_type c) "two_body_decay_and_backflow_based") as [E|_]; [|discriminate].
  intros H. apply bind_some in H. destruct H as (s & _ & H). apply bind_some in H. destruct H as (b & _ & H). injection H as <-. cbn. tauto.
Qed.
Lemma rank_configured c sp ions q bs th e : build_explicit c sp ions q bs th = Some e -> (rank_ok (en_antisym e) <-> (xc_antisym_type c = "factorized" -> (0 < xc_rank c)%nat)).
Proof.
  unfold build_explicit. intros E. apply bind_some in E. destruct E as (j & _ & E). apply bind_some in E. destruct E as (k & Ek & E). apply bind_some in E. destruct E as (a & _ & E).
  apply check_some in E. destruct E as (_ & E). injection E as <-. cbn [en_antisym].
  destruct (String.eqb_spec (xc_antisym_type c) "factorized") as [Ef|Nf]; [injection Ek as <-; cbn; tauto|].
  destruct (String.eqb (xc_antisym_type c) "generic"); [injection Ek as <-; cbn; tauto|discriminate].
Qed.
Lemma products_configured c sp th r : get_sign_covariance_from_config c sp th = Some r -> (is_products r <-> qc_use_products_covariance c = true).
Proof.
  unfold get_sign_covariance_from_config. destruct (qc_use_products_covariance c).
  - intros E. apply check_some in E. destruct E as (_ & E). injection E as <-. cbn. tauto.
  - intros E. apply map_some in E. destruct E as (bs & _ & <-). cbn. split; [contradiction|discriminate].
Qed.
Lemma cov_ok c sp sizes th r : describes sp sizes -> get_sign_covariance_from_config c sp th = Some r -> readout_ok sizes r.
Proof.
  intros D E. unfold get_sign_covariance_from_config in E. destruct (qc_use_products_covariance c).
  - apply check_some in E. destruct E as (_ & E). injection E as <-. exact Logic.I.
  - apply map_some in E. destruct E as (bs & E & <-). cbn. eapply backflow_built; eassumption.
Qed.

(** A wavefunction that is built for a problem with two spin species or more has a value for exactly the configurations that say so: the answer depends neither on the
    parameters nor on where the electrons are. *)
Theorem C81_defined : forall m nelec ions q theta w d x, model_of_job m nelec ions q theta = Some w -> (2 <= length nelec)%nat -> (0 < list_sum nelec)%nat ->
  shape2 (length ions) d ions -> shape2 (list_sum nelec) d x ->
  ((exists p, slog_psi w x = Some p) <-> evaluable m nelec).
Proof.
  intros m nelec ions q th w d x E L2 N Si Sx. assert (NE : nelec <> []) by (intros ->; cbn in L2; lia). pose proof (spin_split_describes nelec NE) as D.
  assert (NA : At (get_spin_split nelec) <> At []) by (destruct nelec as [|a [|b r]]; [congruence|cbn in L2; lia|discriminate]).
  unfold model_of_job in E. apply bind_some in E. destruct E as (c & Ec & E). unfold choose_model_type_in_model_config in Ec. cbv zeta in Ec. change (exists p, slog_psi w x = Some p) with (has (slog_psi w x)).
  unfold evaluable. cbv zeta.
  destruct (String.eqb_spec (ms_type m) "ferminet") as [Et|N1].
  { rewrite Et. injection Ec as <-. cbn [get_model_from_config] in E. apply bind_some in E. destruct E as (bs & Eb & E). apply map_some in E. destruct E as (n & En & <-). cbn [slog_psi].
    destruct (ferminet_fields _ _ _ _ _ _ En) as (F1 & F2 & F3 & F4 & _).
    rewrite (ferminet_has n nelec d x ions); [|split; [rewrite F1; exact D|]; split; [rewrite F3; eapply backflow_built; eassumption|rewrite F2; exact Si]|rewrite F1; exact NA|rewrite F2; reflexivity|exact Sx].
    rewrite F4, F2, (pairwise_configured _ _ _ _ _ _ _ En). cbn [so_ei_norm get_compute_input_streams_from_config]. split; [|tauto]. intros H. repeat split; intros; try discriminate; tauto. }
  destruct (String.eqb_spec (ms_type m) "embedded_particle_ferminet") as [Et|N2].
  { rewrite Et. injection Ec as <-. cbn [get_model_from_config] in E. apply bind_some in E. destruct E as (tot & Etot & E). apply bind_some in E. destruct E as (bs & Eb & E). apply bind_some in E. destruct E as (ib & Ei & E).
    apply bind_some in E. destruct E as (n & En & E). apply check_some in E. destruct E as (_ & E). injection E as <-. cbn [slog_psi].
    destruct (ferminet_fields _ _ _ _ _ _ En) as (F1 & F2 & F3 & F4 & _). set (e := Build_embedded _ _ _ _ _).
    rewrite (embedded_has e nelec d x ions ions); cbn [em_net em_backflow em_streams em_nhidden e]; try assumption; [|rewrite F1; exact D|rewrite F1; exact NA|eapply backflow_built; eassumption|reflexivity| |rewrite F2; exact Si|rewrite F2; reflexivity].
    - rewrite F4, F2, (pairwise_configured _ _ _ _ _ _ _ En). cbn [so_ei_norm get_compute_input_streams_from_config]. split; [|tauto]. intros H. repeat split; intros; try discriminate; tauto.
    - intros L. rewrite (add_counts_same _ _ L) in Etot. injection Etot as <-. rewrite F3. refine (backflow_built _ _ _ _ _ _ Eb). apply spin_split_describes. intros Z. apply (f_equal (@length nat)) in Z.
      unfold embedded_sizes in Z. rewrite zipw_add_length in Z by (symmetry; exact L). destruct nelec; [congruence|discriminate]. }
  destruct (String.eqb_spec (ms_type m) "extended_orbital_matrix_ferminet") as [Et|N3].
  { rewrite Et. injection Ec as <-. cbn [get_model_from_config] in E. apply bind_some in E. destruct E as (bs & Eb & E). apply bind_some in E. destruct E as (ib & Ei & E).
    apply bind_some in E. destruct E as (n & En & E). apply check_some in E. destruct E as (_ & E). injection E as <-. cbn [slog_psi].
    destruct (ferminet_fields _ _ _ _ _ _ En) as (F1 & F2 & F3 & F4 & _).
    rewrite (extended_has _ nelec d x ions); cbn [ex_net ex_nhidden]; [|split; [rewrite F1; exact D|]; split; [rewrite F3; eapply backflow_built; eassumption|rewrite F2; exact Si]|rewrite F1; exact NA|rewrite F2; reflexivity| |exact Sx].
    - rewrite F4, F2, (pairwise_configured _ _ _ _ _ _ _ En). cbn [so_ei_norm get_compute_input_streams_from_config]. split; [|tauto]. intros H. repeat split; intros; try discriminate; tauto.
    - unfold extended_backflow_ok. cbn [ex_backflow]. destruct (hc_separate_backflow (ms_extended m)); [|injection Ei as <-; exact Logic.I]. apply map_some in Ei. destruct Ei as (b & Ei & <-).
      eapply backflow_built; eassumption. }
  assert (QQ : forall k c bs a,
      get_backflow_from_config (qc_backflow c) (At (get_spin_split nelec)) (mp_backflow th) = Some bs -> build_antieq k c (At (get_spin_split nelec)) ions bs th = Some a ->
      (has (antieq_net_call a x) <-> sc_ei_norm (qc_streams c) = true /\ (k = Cofactor -> Forall (fun n => (0 < n)%nat) nelec) /\ (qc_use_products_covariance c = true -> length nelec = 2%nat))).
  { intros k c0 bs a Eb Ea. destruct (antieq_fields _ _ _ _ _ _ _ Ea) as (F1 & F2 & F3 & F5 & F4 & _).
    rewrite (antieq_has a nelec d x ions); try (rewrite F1); try (rewrite F2); try assumption; [|rewrite F3; eapply backflow_built; eassumption|reflexivity|eapply cov_ok; eassumption].
    rewrite F5, (products_configured _ _ _ _ F4). reflexivity. }
  destruct (String.eqb_spec (ms_type m) "orbital_cofactor_net") as [Et|N4].
  { rewrite Et. injection Ec as <-. cbn [get_model_from_config] in E. apply bind_some in E. destruct E as (bs & Eb & E). apply map_some in E. destruct E as (a & Ea & <-). cbn [slog_psi].
    rewrite (QQ _ _ _ _ Eb Ea). split; [|tauto]. intros H. repeat split; intros; try discriminate; tauto. }
  destruct (String.eqb_spec (ms_type m) "per_particle_dets_net") as [Et|N5].
  { rewrite Et. injection Ec as <-. cbn [get_model_from_config] in E. apply bind_some in E. destruct E as (bs & Eb & E). apply map_some in E. destruct E as (a & Ea & <-). cbn [slog_psi].
    rewrite (QQ _ _ _ _ Eb Ea). split; [|intros (_ & _ & _ & _ & H & _); specialize (H eq_refl); split; [tauto|split; [discriminate|tauto]]]. intros H. repeat split; intros; try discriminate; tauto. }
  destruct (String.eqb_spec (ms_type m) "explicit_antisym") as [Et|N6]; [|discriminate].
  rewrite Et. injection Ec as <-. cbn [get_model_from_config] in E. apply bind_some in E. destruct E as (bs & Eb & E). apply map_some in E. destruct E as (a & Ea & <-). cbn [slog_psi].
  destruct (explicit_fields _ _ _ _ _ _ _ Ea) as (F1 & F2 & F3 & F4).
  rewrite (explicit_has a nelec d x ions); try (rewrite F1); try (rewrite F2); try assumption; [|rewrite F3; eapply backflow_built; eassumption|reflexivity|eapply jastrow_built; eassumption].
  rewrite (rank_configured _ _ _ _ _ _ _ Ea), (jastrow_needs _ _ _ _ _ _ F4). cbn [so_ei_norm so_2e get_compute_input_streams_from_config].
  split; [|tauto]. intros H. repeat split; intros; try discriminate; tauto.
Qed.
Print Assumptions C81_defined.

Lemma ions_shape c : well_formed_ions c -> shape2 (length (map (map Fin) (jc_ion_pos c))) (space_dim c) (map (map Fin) (jc_ion_pos c)).
Proof.
  intros (W1 & W2 & W3). split; [reflexivity|]. apply Forall_forall. intros a Ha. apply in_map_iff in Ha. destruct Ha as (b & <- & Hb). rewrite map_length. rewrite Forall_forall in W2. apply W2. exact Hb.
Qed.
Definition good_job_sections (c : job_config) : Prop := good_sections (jc_model c) (length (jc_nelec c)) (length (jc_ion_pos c)) (length (jc_ion_charges c)).
Lemma accepts_iff th c x : well_formed_ions c -> (2 <= length (jc_nelec c))%nat -> (0 < electron_count c)%nat -> shape2 (electron_count c) (space_dim c) x ->
  ((exists w l, model_of_job (jc_model c) (jc_nelec c) (map (map Fin) (jc_ion_pos c)) (map Fin (jc_ion_charges c)) th = Some w /\ log_psi w x = Some l) <-> good_job_sections c /\ evaluable (jc_model c) (jc_nelec c)).
Proof.
  intros W L2 N Sx. pose proof (C72_accepted (jc_model c) (jc_nelec c) (map (map Fin) (jc_ion_pos c)) (map Fin (jc_ion_charges c)) th) as A. rewrite !map_length in A. unfold good_job_sections. rewrite <- A. split.
  - intros (w & l & Ew & El). split; [exists w; exact Ew|]. apply (C81_defined _ _ _ _ _ _ _ _ Ew L2 N (ions_shape c W) Sx). unfold log_psi in El. destruct (slog_psi w x) as [p|]; [exists p; reflexivity|discriminate].
  - intros ((w & Ew) & H). apply (C81_defined _ _ _ _ _ _ _ _ Ew L2 N (ions_shape c W) Sx) in H. destruct H as (p & Ep). exists w, (snd p). split; [exact Ew|]. unfold log_psi. rewrite Ep. reflexivity.
Qed.
(** The condition of C78_accepted, decided by the configuration alone. *)
Theorem C81_model_evaluates : forall c, well_formed_ions c -> (2 <= length (jc_nelec c))%nat -> (0 < list_sum (jc_nelec c))%nat ->
  model_evaluates c <-> good_sections (jc_model c) (length (jc_nelec c)) (length (jc_ion_pos c)) (length (jc_ion_charges c)) /\ evaluable (jc_model c) (jc_nelec c).
Proof.
  intros c W L2 N. split.
  - intros H. set (x := repeat (repeat (Fin 0) (space_dim c)) (electron_count c)).
    assert (Sx : shape2 (electron_count c) (space_dim c) x) by (split; [apply repeat_length|apply Forall_forall; intros a Ha; apply repeat_spec in Ha; subst a; apply repeat_length]).
    apply (accepts_iff (line_params 1) c x W L2 N Sx). apply H. exact Sx.
  - intros H th x Sx. apply (accepts_iff th c x W L2 N Sx). exact H.
Qed.
Print Assumptions C81_model_evaluates.

Section Jobs.
  Context {P1 S1 K J : Type}.
  Variables (g : prng K) (choice : choice_fn K) (perm_of : K -> nat -> nat) (split_n : K -> nat -> list K) (device_keys : K -> list K) (ndev : nat).
  Variables (theta : P1 -> model_params) (init_params : K -> list nat -> P1).
  Variables (grad_p : (P1 -> R) -> P1 -> nat -> R) (grad_px : (P1 -> xr) -> P1 -> nat -> xr).
  Variables (opt_init : optimiser -> P1 -> S1)
            (opt_apply : optimiser -> (nat -> xr) -> P1 -> S1 -> list (list (nat -> R)) -> list (list xr) -> P1 * S1).
  Variable kfac : kfac_optimizer P1 S1 K.
  Variables (has_nan : P1 -> bool) (param_l1_norm : P1 -> xr) (summary : list (list xr) -> J).
  Notation build := (build_job g choice perm_of split_n device_keys ndev theta init_params grad_p grad_px opt_init opt_apply kfac has_nan param_l1_norm summary).
  Hypothesis Hg : good_prng g.
  Hypothesis Hc : good_choice choice.
  Hypothesis Hdk : forall k, length (device_keys k) = ndev.
  Hypothesis Hnd : (0 < ndev)%nat.

  (** Which jobs start, from the configuration alone: neither the seed nor anything random has a say. *)
  Theorem C81_starts : forall c key, well_formed_ions c -> (0 < wc_nchains (jc_walk c))%nat -> (2 <= length (jc_nelec c))%nat -> (0 < list_sum (jc_nelec c))%nat ->
    (exists j, build c key = Some j) <->
    good_sections (jc_model c) (length (jc_nelec c)) (length (jc_ion_pos c)) (length (jc_ion_charges c)) /\ evaluable (jc_model c) (jc_nelec c) /\ accepted_config ndev c.
  Proof.
    intros c key W Hn L2 N. split.
    - intros (j & Hj). assert (M : good_job_sections c /\ evaluable (jc_model c) (jc_nelec c)).
      { pose proof Hj as Hb. unfold build_job in Hb. destruct (setup_walkers _ _ _ _ _ _ _ _ _ _ _) as [[[p0 datas] keys]|]; [|discriminate]. destruct (choose_optimiser (jc_optimizer c)) as [o|]; [|discriminate].
        cbv zeta in Hb. match type of Hb with (let '(_, _) := ?e in _) = _ => destruct e as [s0 keys0] end. match type of Hb with (if ?b then _ else _) = _ => destruct b eqn:Eb end; [|discriminate].
        rewrite !andb_true_iff in Eb. destruct Eb as ((((_ & Eb) & _) & _) & _). unfold model_accepts in Eb.
        match type of Eb with match ?mm with _ => _ end = _ => destruct mm as [w|] eqn:Ew end; [|discriminate]. match type of Eb with match log_psi w ?xx with _ => _ end = _ => destruct (log_psi w xx) as [l|] eqn:El end; [|discriminate].
        refine (proj1 (accepts_iff (theta p0) c _ W L2 N (rows_shape c _)) _). exists w, l. split; [exact Ew|exact El]. }
      destruct M as (M1 & M2). split; [exact M1|]. split; [exact M2|].
      refine (proj1 (C78_accepted g choice perm_of split_n device_keys ndev theta init_params grad_p grad_px opt_init opt_apply kfac has_nan param_l1_norm summary Hg Hc Hdk Hnd c key W Hn _) (ex_intro _ j Hj)).
      apply C81_model_evaluates; try assumption. split; [exact M1|exact M2].
    - intros (M1 & M2 & A). apply C78_accepted; try assumption. apply C81_model_evaluates; try assumption. split; assumption.
  Qed.

  (** The shipped configuration starts for every molecule with electrons of both spins, every model type and every optimiser (SPRING on one device), on every
      number of devices that divides its 2000 walkers. *)
  Theorem C81_shipped : forall ions charges up down model optimizer logdir key, let c := shipped_job ions charges [up; down] model optimizer logdir in
    well_formed_ions c -> (0 < up)%nat -> (0 < down)%nat -> In model model_types -> In optimizer ["kfac"; "adam"; "sgd"; "sr"; "spring"] ->
    ((2 * 1000) mod ndev = 0)%nat -> (optimizer = "spring" -> ndev = 1%nat) -> exists j, build c key = Some j.
  Proof.
    intros ions charges up down t o ld key c W Hu Hd Ht Ho Hdiv Hsp.
    assert (P1000 : (0 < 2 * 1000)%nat /\ (2 * 1000 <> 1)%nat) by (generalize (le_n 1000); lia).
    apply C81_starts; [exact W|exact (proj1 P1000)|cbn; lia|cbn [c shipped_job jc_nelec list_sum fold_right]; lia|].
    assert (GB : forall l a, ~ In [] l -> (a = "tanh" \/ a = "gelu") -> good_backflow (shipped_backflow l a)).
    { intros l a H Ha. unfold good_backflow, known_kernel_init, known_bias_init, known_activation. cbn [shipped_backflow bc_kernel_init_unmixed bc_kernel_init_mixed bc_kernel_init_transformer bc_kernel_init_2e_1e
        bc_kernel_init_2e_2e bc_bias_init_1e bc_bias_init_2e bc_bias_init_transformer bc_activation_fn bc_ndense_list].
      split; [repeat (constructor; [cbn; tauto|]); constructor|]. split; [repeat (constructor; [cbn; tauto|]); constructor|]. split; [destruct Ha as [->| ->]; cbn; tauto|exact H]. }
    assert (SL : ~ In [] shipped_layers) by (unfold shipped_layers; intros [H|[H|[H|[H|[]]]]]; discriminate).
    assert (GF : good_ferminet shipped_ferminet).
    { unfold good_ferminet. split; [repeat (constructor; [cbn; tauto|]); constructor|]. split; [cbn; tauto|]. split; [cbn; tauto|]. discriminate. }
    assert (GA : good_antieq shipped_antieq).
    { unfold good_antieq. split; [apply GB; [exact SL|tauto]|]. split; [repeat (constructor; [cbn; tauto|]); constructor|]. split; [cbn; tauto|]. split; [intros _; cbn; tauto|discriminate]. }
    split; [|split].
    - unfold good_sections. cbv zeta. unfold model_types in Ht. cbn [In] in Ht. cbn [c shipped_job jc_model shipped_sections ms_type ms_ferminet ms_embedded ms_extended ms_cofactor ms_per_particle ms_explicit].
      destruct Ht as [<-|[<-|[<-|[<-|[<-|[<-|[]]]]]]].
      + left. split; [reflexivity|]. split; [exact GF|apply GB; [exact SL|tauto]].
      + right. left. split; [reflexivity|]. split; [|split; [apply GB; [exact SL|tauto]|left; reflexivity]].
        split; [cbn; tauto|]. split; [cbn; tauto|]. split; [exact GF|apply GB; [exact SL|tauto]].
      + right. right. left. split; [reflexivity|]. split; [|discriminate]. split; [cbn; tauto|]. split; [cbn; tauto|]. split; [exact GF|apply GB; [exact SL|tauto]].
      + do 3 right. left. split; [reflexivity|exact GA].
      + do 4 right. left. split; [reflexivity|exact GA].
      + do 5 right. split; [reflexivity|]. unfold good_explicit. split; [apply GB; [exact SL|tauto]|]. split; [|split; [right; reflexivity|split; [left; reflexivity|split; cbn; tauto]]].
        unfold good_jastrow. right. right. left. split; [reflexivity|]. intros _. apply GB; [exact SL|tauto].
    - unfold evaluable. cbv zeta. cbn [c shipped_job jc_model jc_nelec shipped_sections ms_type ms_ferminet ms_embedded ms_extended ms_cofactor ms_per_particle ms_explicit length].
      repeat split; intros; try discriminate; try (cbn; lia); try reflexivity. repeat constructor; assumption.
    - unfold accepted_config. cbn [c shipped_job jc_walk jc_energy jc_optimizer jc_eval_energy jc_eval_use_training_data jc_eval_walk shipped_walk wc_nchains]. split; [exact Hdiv|]. split; [exact (proj2 P1000)|]. split; [|split; [|split; [left; reflexivity|intros _; exact Hdiv]]].
      + split; [cbn; tauto|]. split; [discriminate|]. intros _ _. left. reflexivity.
      + split; [exact Ho|]. split; [exact Hsp|]. split.
        * intros s Hs. cbn [oc_type shipped_optimizer] in Hs. cbn [In] in Ho. assert (Z : s = shipped_schedule) by (destruct Ho as [<-|[<-|[<-|[<-|[<-|[]]]]]]; cbn in Hs; congruence). subst s. right. reflexivity.
        * intros _. split; [right; reflexivity|cbn; tauto].
  Qed.
End Jobs.
Print Assumptions C81_starts.
Print Assumptions C81_shipped.

(** LiH, as shipped, on one device with SPRING and on four with KFAC; two wavefunctions without a value: the cofactor model of a molecule without electrons of the
    second spin, and the products readout for three spin species. *)
Definition lih (model optimizer : string) : job_config := shipped_job [[0; 0; - (15069621 / 10000000)]; [0; 0; 15069621 / 10000000]] [1; 3] [2; 2]%nat model optimizer "logs".
Definition lih_job (ndev : nat) := build_job ex_prng ex_choice (fun _ i => i) (fun k n => repeat k n) (fun k => repeat k ndev) ndev line_params (fun _ _ => 1) line_grad (fun f p i => NaN) (fun _ _ => tt) line_step line_kfac
  (fun _ => false) (fun p => Fin (Rabs p)) (fun rows => rows).
Example C81_example : forall model key, In model model_types ->
  (exists j, lih_job 1 (lih model "spring") key = Some j) /\ (exists j, lih_job 4 (lih model "kfac") key = Some j) /\ ~ evaluable (shipped_sections "orbital_cofactor_net") [2; 0]%nat /\ evaluable (shipped_sections "per_particle_dets_net") [2; 0]%nat /\ ~ evaluable (shipped_sections "per_particle_dets_net") [2; 1; 1]%nat /\ evaluable (shipped_sections "ferminet") [2; 1; 1]%nat.
Proof.
  intros t key Ht. assert (W : forall o, well_formed_ions (lih t o)) by (intros o; split; [discriminate|]; split; [repeat constructor|reflexivity]).
  assert (D4 : ((2 * 1000) mod 4 = 0)%nat) by reflexivity.
  split; [|split; [|split; [|split; [|split]]]].
  - apply C81_shipped; [exact ex_prng_good|exact ex_choice_good|intros; apply repeat_length|lia|apply W|lia|lia|exact Ht|cbn; tauto|reflexivity|reflexivity].
  - apply C81_shipped; [exact ex_prng_good|exact ex_choice_good|intros; apply repeat_length|lia|apply W|lia|lia|exact Ht|cbn; tauto|exact D4|discriminate].
  - intros (_ & _ & _ & H & _). destruct (H eq_refl) as (_ & Z). inversion Z as [|? ? _ Z']. apply Forall_inv in Z'. lia.
  - unfold evaluable. cbv zeta. repeat split; intros; try discriminate; reflexivity.
  - intros (_ & _ & _ & _ & H & _). destruct (H eq_refl) as (_ & Z). discriminate (Z eq_refl).
  - unfold evaluable. cbv zeta. repeat split; intros; try discriminate; try reflexivity; cbn; lia.
Qed.
