(** * The model a job is configured with: C72 *)
From Coq Require Import String Reals List Bool Arith Lia Lra ZArith.
From Verif Require Import XReal M_slog M_models M_antisym M_construct M_dispatch S_models S_antisym S_construct S_dispatch P_split P_models P_construct P_construct2 P_construct3 P_construct4 P_construct5 P_leibniz P_dispatch.
Import ListNotations.
Local Open Scope string_scope.

(** Exactly the configurations with known names are accepted; everything else raises before a wavefunction exists. *)
Theorem C72_accepted : forall m nelec ions q theta,
  (exists w, model_of_job m nelec ions q theta = Some w) <-> good_sections m (length nelec) (length ions) (length q).
Proof.
  intros m nelec ions q th. unfold model_of_job, choose_model_type_in_model_config, good_sections. cbv zeta.
  destruct (String.eqb_spec (ms_type m) "ferminet") as [E|N1].
  { rewrite E. cbn [bind_opt get_model_from_config]. rewrite <- (ferminet_iff _ (At (get_spin_split nelec)) ions [] th), <- (backflow_iff _ (At (get_spin_split nelec)) (mp_backflow th)). split.
    - intros (w & H). apply bind_some in H. destruct H as (bs & Eb & H). apply map_some in H. destruct H as (n & En & _). left. split; [reflexivity|]. split; [|exists bs; exact Eb].
      apply ferminet_iff. apply (ferminet_iff _ (At (get_spin_split nelec)) ions bs th). exists n. exact En.
    - intros [(_ & H & (bs & ->))|[(H & _)|[(H & _)|[(H & _)|[(H & _)|(H & _)]]]]]; try discriminate. apply ferminet_iff in H. cbn [bind_opt].
      destruct (proj2 (ferminet_iff (ms_ferminet m) (At (get_spin_split nelec)) ions bs th) H) as (n & ->). eexists. reflexivity. }
  destruct (String.eqb_spec (ms_type m) "embedded_particle_ferminet") as [E|N2].
  { rewrite E. cbn [bind_opt get_model_from_config]. split.
    - intros (w & H). apply bind_some in H. destruct H as (tot & Et & H). apply bind_some in H. destruct H as (bs & Eb & H). apply bind_some in H. destruct H as (ib & Ei & H).
      apply bind_some in H. destruct H as (n & En & H). apply check_some in H. destruct H as (K & _). rewrite andb_true_iff, kernel_iff, bias_iff in K. right. left. split; [reflexivity|].
      split; [split; [tauto|]; split; [tauto|]; split; [eapply ferminet_iff; exists n; exact En|eapply backflow_iff; exists bs; exact Eb]|].
      split; [eapply backflow_iff; exists ib; exact Ei|]. apply add_counts_iff. exists tot. exact Et.
    - intros [(H & _)|[(_ & (K & B & F & G) & I & C)|[(H & _)|[(H & _)|[(H & _)|(H & _)]]]]]; try discriminate. apply add_counts_iff in C. destruct C as (tot & ->). cbn [bind_opt].
      destruct (proj2 (backflow_iff _ (At (get_spin_split tot)) (mp_backflow th)) G) as (bs & ->). cbn [bind_opt].
      destruct (proj2 (backflow_iff _ (At (get_spin_split nelec)) (mp_second_backflow th)) I) as (ib & ->). cbn [bind_opt].
      destruct (proj2 (ferminet_iff _ (At (get_spin_split nelec)) ions bs th) F) as (n & ->). cbn [bind_opt].
      apply kernel_iff in K. apply bias_iff in B. rewrite K, B. eexists. reflexivity. }
  destruct (String.eqb_spec (ms_type m) "extended_orbital_matrix_ferminet") as [E|N3].
  { rewrite E. cbn [bind_opt get_model_from_config]. split.
    - intros (w & H). apply bind_some in H. destruct H as (bs & Eb & H). apply bind_some in H. destruct H as (ib & Ei & H).
      apply bind_some in H. destruct H as (n & En & H). apply check_some in H. destruct H as (K & _). rewrite andb_true_iff, kernel_iff, bias_iff in K. right. right. left. split; [reflexivity|].
      split; [split; [tauto|]; split; [tauto|]; split; [eapply ferminet_iff; exists n; exact En|eapply backflow_iff; exists bs; exact Eb]|].
      intros S. rewrite S in Ei. apply map_some in Ei. destruct Ei as (b & Ei & _). eapply backflow_iff. exists b. exact Ei.
    - intros [(H & _)|[(H & _)|[(_ & (K & B & F & G) & I)|[(H & _)|[(H & _)|(H & _)]]]]]; try discriminate.
      destruct (proj2 (backflow_iff _ (At (get_spin_split nelec)) (mp_backflow th)) G) as (bs & ->). cbn [bind_opt].
      assert (Ei : exists ib, (if hc_separate_backflow (ms_extended m) then option_map Some (get_backflow_from_config (hc_backflow (ms_extended m)) (At (get_spin_split nelec)) (mp_second_backflow th)) else Some None) = Some ib).
      { destruct (hc_separate_backflow (ms_extended m)); [|eexists; reflexivity].
        destruct (proj2 (backflow_iff _ (At (get_spin_split nelec)) (mp_second_backflow th)) (I eq_refl)) as (ib & ->). eexists. reflexivity. }
      destruct Ei as (ib & ->). cbn [bind_opt]. destruct (proj2 (ferminet_iff _ (At (get_spin_split nelec)) ions bs th) F) as (n & ->). cbn [bind_opt].
      apply kernel_iff in K. apply bias_iff in B. rewrite K, B. eexists. reflexivity. }
  assert (QQ : forall k c, (exists w, (do bs <- get_backflow_from_config (qc_backflow c) (At (get_spin_split nelec)) (mp_backflow th);
      option_map WAntieq (build_antieq k c (At (get_spin_split nelec)) ions bs th)) = Some w) <-> good_antieq c).
  { intros k c. unfold good_antieq. rewrite <- (backflow_iff (qc_backflow c) (At (get_spin_split nelec)) (mp_backflow th)). split.
    - intros (w & H). apply bind_some in H. destruct H as (bs & Eb & H). apply map_some in H. destruct H as (a & Ea & _). split; [exists bs; exact Eb|]. eapply antieq_iff. exists a. exact Ea.
    - intros ((bs & ->) & H). cbn [bind_opt]. destruct (proj2 (antieq_iff k c (At (get_spin_split nelec)) ions bs th) H) as (a & ->). eexists. reflexivity. }
  destruct (String.eqb_spec (ms_type m) "orbital_cofactor_net") as [E|N4].
  { rewrite E. cbn [bind_opt get_model_from_config]. rewrite QQ. split; [intros H; do 3 right; left; split; [reflexivity|exact H]|].
    intros [(H & _)|[(H & _)|[(H & _)|[(_ & H)|[(H & _)|(H & _)]]]]]; try discriminate. exact H. }
  destruct (String.eqb_spec (ms_type m) "per_particle_dets_net") as [E|N5].
  { rewrite E. cbn [bind_opt get_model_from_config]. rewrite QQ. split; [intros H; do 4 right; left; split; [reflexivity|exact H]|].
    intros [(H & _)|[(H & _)|[(H & _)|[(H & _)|[(_ & H)|(H & _)]]]]]; try discriminate. exact H. }
  destruct (String.eqb_spec (ms_type m) "explicit_antisym") as [E|N6].
  { rewrite E. cbn [bind_opt get_model_from_config]. unfold good_explicit. rewrite <- (backflow_iff (xc_backflow (ms_explicit m)) (At (get_spin_split nelec)) (mp_backflow th)). split.
    - intros (w & H). apply bind_some in H. destruct H as (bs & Eb & H). apply map_some in H. destruct H as (a & Ea & _). do 5 right. split; [reflexivity|]. split; [exists bs; exact Eb|].
      apply (proj1 (explicit_iff (ms_explicit m) (At (get_spin_split nelec)) ions q bs th)). exists a. exact Ea.
    - intros [(H & _)|[(H & _)|[(H & _)|[(H & _)|[(H & _)|(_ & (bs & ->) & H)]]]]]; try discriminate. cbn [bind_opt].
      destruct (proj2 (explicit_iff (ms_explicit m) (At (get_spin_split nelec)) ions q bs th) H) as (a & ->). eexists. reflexivity. }
  split; [intros (w & H); discriminate|]. intros [(H & _)|[(H & _)|[(H & _)|[(H & _)|[(H & _)|(H & _)]]]]]; contradiction.
Qed.
Print Assumptions C72_accepted.

(** Every wavefunction a job can be configured with is antisymmetric, for every value of the parameters; only the weighted products readout is not. *)
Theorem C72_antisymmetric : forall m nelec ions q theta w d s x, model_of_job m nelec ions q theta = Some w -> ~ weighted_products m ->
  nelec <> [] -> (0 < list_sum nelec)%nat -> shape2 (length ions) d ions -> keeps_spins nelec s -> shape2 (list_sum nelec) d x ->
  slog_psi w (reorder s x) = option_map (times_sign (sign_of (list_sum nelec) s)) (slog_psi w x).
Proof.
  intros m nelec ions q th w d s x E NW NE N Si K Sx. pose proof (spin_split_describes nelec NE) as D.
  unfold model_of_job in E. apply bind_some in E. destruct E as (c & Ec & E). unfold choose_model_type_in_model_config in Ec. cbv zeta in Ec. unfold weighted_products in NW. cbv zeta in NW.
  destruct (String.eqb (ms_type m) "ferminet").
  { injection Ec as <-. cbn [get_model_from_config] in E. apply bind_some in E. destruct E as (bs & Eb & E). apply map_some in E. destruct E as (n & En & <-). cbn [slog_psi].
    destruct (ferminet_fields _ _ _ _ _ _ En) as (F1 & F2 & F3 & _). apply (ferminet_antisymmetric n nelec d); try assumption.
    split; [rewrite F1; exact D|]. split; [rewrite F3; eapply backflow_built; eassumption|rewrite F2; exact Si]. }
  destruct (String.eqb (ms_type m) "embedded_particle_ferminet").
  { injection Ec as <-. cbn [get_model_from_config] in E. apply bind_some in E. destruct E as (tot & Et & E). apply bind_some in E. destruct E as (bs & Eb & E). apply bind_some in E. destruct E as (ib & Ei & E).
    apply bind_some in E. destruct E as (n & En & E). apply check_some in E. destruct E as (_ & E). injection E as <-. cbn [slog_psi].
    destruct (ferminet_fields _ _ _ _ _ _ En) as (F1 & F2 & F3 & _). set (e := Build_embedded _ _ _ _ _).
    destruct (Nat.eq_dec (length (em_nhidden e)) (length nelec)) as [L|L].
    - assert (L' : length (hc_nhidden (ms_embedded m)) = length nelec) by exact L. rewrite (add_counts_same _ _ L') in Et. injection Et as <-.
      apply (embedded_antisymmetric e nelec d); cbn [em_net em_backflow em_streams e]; try assumption.
      + rewrite F1. exact D.
      + eapply backflow_built; eassumption.
      + rewrite F3. refine (backflow_built _ _ _ _ _ _ Eb). apply spin_split_describes. intros Z. apply (f_equal (@length nat)) in Z. unfold embedded_sizes in Z. rewrite zipw_add_length in Z by (symmetry; exact L').
        destruct nelec; [congruence|discriminate].
      + rewrite F2. exact Si.
    - pose proof (proj1 Sx) as Lx. rewrite !(embedded_mismatch e nelec); try assumption; [reflexivity|rewrite reorder_length; exact Lx]. }
  destruct (String.eqb (ms_type m) "extended_orbital_matrix_ferminet").
  { injection Ec as <-. cbn [get_model_from_config] in E. apply bind_some in E. destruct E as (bs & Eb & E). apply bind_some in E. destruct E as (ib & Ei & E).
    apply bind_some in E. destruct E as (n & En & E). apply check_some in E. destruct E as (_ & E). injection E as <-. cbn [slog_psi].
    destruct (ferminet_fields _ _ _ _ _ _ En) as (F1 & F2 & F3 & _). apply (extended_antisymmetric _ nelec d); try assumption.
    - cbn [ex_net]. split; [rewrite F1; exact D|]. split; [rewrite F3; eapply backflow_built; eassumption|rewrite F2; exact Si].
    - unfold extended_backflow_ok. cbn [ex_backflow]. destruct (hc_separate_backflow (ms_extended m)); [|injection Ei as <-; exact Logic.I]. apply map_some in Ei. destruct Ei as (b & Ei & <-).
      eapply backflow_built; eassumption. }
  assert (QQ : forall k c bs a, ~ (qc_use_products_covariance c = true /\ qc_products_use_weights c = true) ->
      get_backflow_from_config (qc_backflow c) (At (get_spin_split nelec)) (mp_backflow th) = Some bs -> build_antieq k c (At (get_spin_split nelec)) ions bs th = Some a ->
      antieq_net_call a (reorder s x) = option_map (times_sign (sign_of (list_sum nelec) s)) (antieq_net_call a x)).
  { intros k c0 bs a Nw Eb Ea. destruct (antieq_fields _ _ _ _ _ _ _ Ea) as (F1 & F2 & F3 & _ & F4 & _). apply (antieq_antisymmetric a nelec d); try assumption.
    - rewrite F1. exact D.
    - rewrite F3. eapply backflow_built; eassumption.
    - rewrite F2. exact Si.
    - eapply cov_built; eassumption. }
  destruct (String.eqb_spec (ms_type m) "orbital_cofactor_net") as [Et|_].
  { injection Ec as <-. cbn [get_model_from_config] in E. apply bind_some in E. destruct E as (bs & Eb & E). apply map_some in E. destruct E as (a & Ea & <-). cbn [slog_psi].
    eapply QQ; [|exact Eb|exact Ea]. intros H. apply NW. left. split; [exact Et|exact H]. }
  destruct (String.eqb_spec (ms_type m) "per_particle_dets_net") as [Et|_].
  { injection Ec as <-. cbn [get_model_from_config] in E. apply bind_some in E. destruct E as (bs & Eb & E). apply map_some in E. destruct E as (a & Ea & <-). cbn [slog_psi].
    eapply QQ; [|exact Eb|exact Ea]. intros H. apply NW. right. split; [exact Et|exact H]. }
  destruct (String.eqb (ms_type m) "explicit_antisym"); [|discriminate].
  injection Ec as <-. cbn [get_model_from_config] in E. apply bind_some in E. destruct E as (bs & Eb & E). apply map_some in E. destruct E as (a & Ea & <-). cbn [slog_psi].
  destruct (explicit_fields _ _ _ _ _ _ _ Ea) as (F1 & F2 & F3 & F4). apply (explicit_antisymmetric a nelec d); try assumption.
  - rewrite F1. exact D.
  - rewrite F3. eapply backflow_built; eassumption.
  - rewrite F2. exact Si.
  - eapply jastrow_built; eassumption.
Qed.
Print Assumptions C72_antisymmetric.
(** What the sampler and the energy see, log|psi|, does not depend on the numbering of electrons of the same spin. *)
Theorem C72_log_psi_invariant : forall m nelec ions q theta w d s x, model_of_job m nelec ions q theta = Some w -> ~ weighted_products m ->
  nelec <> [] -> (0 < list_sum nelec)%nat -> shape2 (length ions) d ions -> keeps_spins nelec s -> shape2 (list_sum nelec) d x ->
  log_psi w (reorder s x) = log_psi w x.
Proof.
  intros. unfold log_psi. erewrite C72_antisymmetric by eassumption. destruct (slog_psi w x) as [[a b]|]; reflexivity.
Qed.
Print Assumptions C72_log_psi_invariant.

(** Every option of a backflow section reaches the layer it names, block by block. *)
Theorem C72_backflow_options : forall c spin_split theta bs, get_backflow_from_config c spin_split theta = Some bs ->
  Forall2 (layer_as_configured c spin_split) (bc_ndense_list c) bs.
Proof. exact backflow_configured. Qed.
Print Assumptions C72_backflow_options.
(** Likewise for a FermiNet; the mode of the determinant network is the one named in its own section, whatever the case of the letters. *)
Theorem C72_ferminet_options : forall m nelec ions q theta w, ms_type m = "ferminet" -> model_of_job m nelec ions q theta = Some w ->
  let c := ms_ferminet m in
  exists n, w = WFermiNet n /\ fn_split n = At (get_spin_split nelec) /\ Forall2 (layer_as_configured (fc_backflow c) (fn_split n)) (bc_ndense_list (fc_backflow c)) (fn_backflow n) /\
  so_ion_pos (fn_streams n) = Some ions /\ so_2e (fn_streams n) = sc_2e (fc_streams c) /\ so_ei_norm (fn_streams n) = sc_ei_norm (fc_streams c) /\ so_ee_norm (fn_streams n) = sc_ee_norm (fc_streams c) /\
  fn_ndet n = fc_ndeterminants c /\ fn_soft n = fc_envelope_softening c /\ fn_isotropic n = fc_isotropic_decay c /\ fn_full_det n = fc_full_det c /\
  (forall i, o_bias (fn_orbitals n i) <> None <-> fc_orbitals_use_bias c = true) /\ (fn_det_fn n <> None <-> fc_use_det_resnet c = true) /\
  upper (rc_mode (fc_det_resnet c)) = match fn_mode n with SIGN_COVARIANCE => "SIGN_COVARIANCE" | PARALLEL_EVEN => "PARALLEL_EVEN" | PAIRWISE_EVEN => "PAIRWISE_EVEN" end.
Proof.
  intros m nelec ions q th w T E c. unfold model_of_job, choose_model_type_in_model_config in E. cbv zeta in E. rewrite T in E.
  change (String.eqb "ferminet" "ferminet") with true in E. cbv iota in E. cbn [bind_opt get_model_from_config] in E. fold c in E.
  apply bind_some in E. destruct E as (bs & Eb & E). apply map_some in E. destruct E as (n & En & <-). exists n. split; [reflexivity|].
  destruct (ferminet_fields _ _ _ _ _ _ En) as (F1 & F2 & F3 & F4 & F5 & F6 & F7 & F8 & F9 & F10). split; [exact F1|].
  split; [rewrite F1, F3; apply (backflow_configured _ _ _ _ Eb)|]. rewrite F2. cbn [so_ion_pos so_2e so_ei_norm so_ee_norm get_compute_input_streams_from_config].
  repeat (split; [first [reflexivity|assumption]|]). revert F9. generalize (upper (rc_mode (fc_det_resnet c))) as u. intros u. unfold determinant_fn_mode.
  destruct (String.eqb_spec u "SIGN_COVARIANCE"); [intros [= <-]; assumption|]. destruct (String.eqb_spec u "PARALLEL_EVEN"); [intros [= <-]; assumption|].
  destruct (String.eqb_spec u "PAIRWISE_EVEN"); [intros [= <-]; assumption|discriminate].
Qed.
Print Assumptions C72_ferminet_options.
(** "Every option of the configuration matters" is false: the softening of the input norms and determinant_fn_mode have no effect. *)
Theorem C72_norm_softening_ignored_refuted : forall ei ee m nelec ions q theta,
  model_of_job (with_norm_softening ei ee m) nelec ions q theta = model_of_job m nelec ions q theta.
Proof.
  intros. unfold model_of_job, choose_model_type_in_model_config. cbv zeta. cbn [ms_type with_norm_softening].
  repeat match goal with |- context [if ?b then _ else _] => destruct b end; reflexivity.
Qed.
Print Assumptions C72_norm_softening_ignored_refuted.
Theorem C72_determinant_fn_mode_ignored_refuted : forall name m nelec ions q theta,
  model_of_job (with_determinant_fn_mode name m) nelec ions q theta = model_of_job m nelec ions q theta.
Proof.
  intros. unfold model_of_job, choose_model_type_in_model_config. cbv zeta. cbn [ms_type with_determinant_fn_mode].
  repeat match goal with |- context [if ?b then _ else _] => destruct b end; reflexivity.
Qed.
Print Assumptions C72_determinant_fn_mode_ignored_refuted.
(** The options of the cofactor model arrive under other names: the decay is anisotropic, there is a bias exactly if isotropic_decay is set, and the
    envelope is softened by 1 exactly if orbitals_use_bias is set; those of the per-particle model arrive as configured. *)
Theorem C72_cofactor_options_refuted : forall m nelec ions q theta w, ms_type m = "orbital_cofactor_net" -> model_of_job m nelec ions q theta = Some w ->
  exists a, w = WAntieq a /\ an_kind a = Cofactor /\ an_isotropic a = false /\ an_soft a = Fin (if qc_orbitals_use_bias (ms_cofactor m) then 1 else 0) /\
  (forall i, o_bias (an_orbitals a i) <> None <-> qc_isotropic_decay (ms_cofactor m) = true).
Proof.
  intros m nelec ions q th w T E. unfold model_of_job, choose_model_type_in_model_config in E. cbv zeta in E. rewrite T in E. cbn [String.eqb Ascii.eqb Bool.eqb] in E.
  cbn [bind_opt get_model_from_config] in E. apply bind_some in E. destruct E as (bs & Eb & E). apply map_some in E. destruct E as (a & Ea & <-). exists a. split; [reflexivity|].
  unfold build_antieq in Ea. cbv zeta in Ea. apply check_some in Ea. destruct Ea as (_ & Ea). apply bind_some in Ea. destruct Ea as (cov & _ & Ea). cbn [bind_opt cofactor_orbital_layer] in Ea.
  injection Ea as <-. cbn [an_kind an_isotropic an_soft an_orbitals]. repeat (split; [reflexivity|]). intros i. apply if_used_iff.
Qed.
Print Assumptions C72_cofactor_options_refuted.
Theorem C72_per_particle_options : forall m nelec ions q theta w, ms_type m = "per_particle_dets_net" -> model_of_job m nelec ions q theta = Some w ->
  exists a, w = WAntieq a /\ an_kind a = PerParticle /\ an_isotropic a = qc_isotropic_decay (ms_per_particle m) /\ an_soft a = Fin 0 /\
  (forall i, o_bias (an_orbitals a i) <> None <-> qc_orbitals_use_bias (ms_per_particle m) = true).
Proof.
  intros m nelec ions q th w T E. unfold model_of_job, choose_model_type_in_model_config in E. cbv zeta in E. rewrite T in E. cbn [String.eqb Ascii.eqb Bool.eqb] in E.
  cbn [bind_opt get_model_from_config] in E. apply bind_some in E. destruct E as (bs & Eb & E). apply map_some in E. destruct E as (a & Ea & <-). exists a. split; [reflexivity|].
  unfold build_antieq in Ea. cbv zeta in Ea. apply check_some in Ea. destruct Ea as (_ & Ea). apply bind_some in Ea. destruct Ea as (cov & _ & Ea). cbn [bind_opt per_particle_orbital_layer] in Ea.
  injection Ea as <-. cbn [an_kind an_isotropic an_soft an_orbitals]. repeat (split; [reflexivity|]). intros i. apply if_used_iff.
Qed.
Print Assumptions C72_per_particle_options.
(** The sections of the other model types do not matter. *)
Theorem C72_only_chosen_section : forall m m' nelec ions q theta, same_chosen_section m m' -> model_of_job m nelec ions q theta = model_of_job m' nelec ions q theta.
Proof.
  intros m m' nelec ions q th (T & H1 & H2 & H3 & H4 & H5 & H6). unfold model_of_job, choose_model_type_in_model_config. cbv zeta. rewrite <- T.
  destruct (String.eqb_spec (ms_type m) "ferminet"); [rewrite H1 by assumption; reflexivity|].
  destruct (String.eqb_spec (ms_type m) "embedded_particle_ferminet"); [rewrite H2 by assumption; reflexivity|].
  destruct (String.eqb_spec (ms_type m) "extended_orbital_matrix_ferminet"); [rewrite H3 by assumption; reflexivity|].
  destruct (String.eqb_spec (ms_type m) "orbital_cofactor_net"); [rewrite H4 by assumption; reflexivity|].
  destruct (String.eqb_spec (ms_type m) "per_particle_dets_net"); [rewrite H5 by assumption; reflexivity|].
  destruct (String.eqb_spec (ms_type m) "explicit_antisym"); [rewrite H6 by assumption; reflexivity|]. reflexivity.
Qed.
Print Assumptions C72_only_chosen_section.
(** A FermiNet with at least two spin species, norms in the input and a determinant has a value everywhere. *)
Theorem C72_ferminet_defined : forall m nelec ions q theta w d x, ms_type m = "ferminet" -> model_of_job m nelec ions q theta = Some w ->
  let c := ms_ferminet m in
  (2 <= length nelec)%nat -> shape2 (length ions) d ions -> shape2 (list_sum nelec) d x -> (0 < fc_ndeterminants c)%nat -> sc_ei_norm (fc_streams c) = true ->
  (fc_use_det_resnet c = true -> upper (rc_mode (fc_det_resnet c)) = "PAIRWISE_EVEN" -> fc_full_det c = false /\ length nelec = 2%nat) ->
  exists p, slog_psi w x = Some p.
Proof.
  intros m nelec ions q th w d x T E c L2 Si Sx Nd En Hp. destruct (C72_ferminet_options m nelec ions q th w T E) as (n & -> & F1 & F2 & F3 & F4 & F5 & F6 & F7 & F8 & F9 & F10 & F11 & F12 & F13).
  fold c in F2, F4, F5, F6, F7, F8, F9, F10, F11, F12, F13. cbn [slog_psi]. assert (NE : nelec <> []) by (intros ->; cbn in L2; lia). pose proof (spin_split_describes nelec NE) as D.
  apply (ferminet_total n nelec d); try assumption.
  - split; [rewrite F1; exact D|]. split; [|unfold ions_fit; rewrite F3; exact Si]. unfold built_for. revert F2. rewrite F1. generalize (bc_ndense_list (fc_backflow c)) as l. generalize (fn_backflow n) as bs.
    intros bs l F. induction F as [|a b l bs (Q & _) _ IH]; constructor; [rewrite Q; exact D|exact IH].
  - rewrite F7. exact Nd.
  - right. rewrite F5. exact En.
  - right. rewrite F1. destruct nelec as [|a [|b r]]; [congruence|cbn in L2; lia|]. discriminate.
  - intros fn Ed Em. rewrite F10. apply Hp; [apply F12; congruence|]. rewrite F13, Em. reflexivity.
Qed.
Print Assumptions C72_ferminet_defined.

(** ** The default configuration *)
Definition default_streams : streams_config := Build_streams_config true true (Fin 0) true (Fin 0).
Definition default_backflow (l : list (list nat)) : backflow_config :=
  Build_backflow_config l "orthogonal" "orthogonal" "orthogonal" "orthogonal" "orthogonal" "normal" "normal" "normal" "tanh" true true (Fin 1) true (Fin 1) false false 1.
Definition default_resnet : resnet_config := Build_resnet_config 10 3 "gelu" "orthogonal" "normal" true "parallel_even".
Definition default_ferminet : ferminet_config :=
  Build_ferminet_config default_streams (default_backflow [[16; 4]; [16; 4]; [16]]%nat) 1 "orthogonal" "ones" "ones" (Fin 0) "normal" true true false default_resnet "parallel_even" false.
Definition default_hidden : hidden_config := Build_hidden_config default_ferminet [2; 2]%nat false default_streams (default_backflow [[16; 4]; [16]]%nat) "orthogonal" "normal" true.
Definition default_antieq : antieq_model_config :=
  Build_antieq_model_config default_streams (default_backflow [[16; 4]; [16]]%nat) "orthogonal" "ones" "ones" "normal" true true true (default_backflow [[32]; [32]; [1]]%nat) "orthogonal" false false.
Definition default_jastrow : jastrow_config := Build_jastrow_config "backflow_based" "ones" (Fin 1) true true (default_backflow [[16; 4]; [16]]%nat).
Definition default_explicit : explicit_config := Build_explicit_config default_streams (default_backflow [[16; 4]; [16]]%nat) "generic" 1 8 2 "orthogonal" "normal" "tanh" true default_jastrow.
Definition default_sections (t : string) : model_sections := Build_model_sections t default_ferminet default_hidden default_hidden default_antieq default_antieq default_explicit.
(** The default configuration (with smaller layers) is accepted for every model type, for LiH with two electrons of each spin, and is not the exception. *)
Example C72_example : forall t theta, In t ["ferminet"; "embedded_particle_ferminet"; "extended_orbital_matrix_ferminet"; "orbital_cofactor_net"; "per_particle_dets_net"; "explicit_antisym"] ->
  (exists w, model_of_job (default_sections t) [2; 2]%nat [[Fin 0; Fin 0; Fin (-1)]; [Fin 0; Fin 0; Fin 1]] [Fin 1; Fin 3] theta = Some w) /\
  ~ weighted_products (default_sections t) /\ keeps_spins [2; 2]%nat (exchange 2 3) /\ sign_of 4 (exchange 2 3) = (-1)%R /\
  ~ (exists w, model_of_job (default_sections "slater") [2; 2]%nat [] [] theta = Some w).
Proof.
  intros t th Ht.
  assert (GB : forall l, ~ In [] l -> good_backflow (default_backflow l)).
  { intros l H. unfold good_backflow, known_kernel_init, known_bias_init, known_activation. cbn [default_backflow bc_kernel_init_unmixed bc_kernel_init_mixed bc_kernel_init_transformer bc_kernel_init_2e_1e
      bc_kernel_init_2e_2e bc_bias_init_1e bc_bias_init_2e bc_bias_init_transformer bc_activation_fn bc_ndense_list].
    repeat split; [repeat (constructor; [cbn; tauto|]); constructor|repeat (constructor; [cbn; tauto|]); constructor|left; reflexivity|exact H]. }
  assert (GF : good_ferminet default_ferminet).
  { unfold good_ferminet. repeat split; [repeat (constructor; [cbn; tauto|]); constructor|cbn; tauto|right; left; reflexivity|discriminate|discriminate|discriminate]. }
  assert (GA : good_antieq default_antieq).
  { unfold good_antieq. split; [apply GB; cbn; intuition discriminate|]. split; [repeat (constructor; [cbn; tauto|]); constructor|]. split; [cbn; tauto|]. split; [intros _; cbn; tauto|discriminate]. }
  split; [|split; [|split; [apply exchange_keeps; cbn; lia|split; [apply exchange_sign; lia|]]]].
  - apply C72_accepted. cbn in Ht. unfold good_sections. cbv zeta.
    destruct Ht as [<-|[<-|[<-|[<-|[<-|[<-|[]]]]]]].
    + left. split; [reflexivity|]. split; [exact GF|apply GB; cbn; intuition discriminate].
    + right. left. split; [reflexivity|]. split; [|split; [apply GB; cbn; intuition discriminate|left; reflexivity]].
      split; [cbn; tauto|]. split; [cbn; tauto|]. split; [exact GF|apply GB; cbn; intuition discriminate].
    + right. right. left. split; [reflexivity|]. split; [|discriminate]. split; [cbn; tauto|]. split; [cbn; tauto|]. split; [exact GF|apply GB; cbn; intuition discriminate].
    + do 3 right. left. split; [reflexivity|exact GA].
    + do 4 right. left. split; [reflexivity|exact GA].
    + do 5 right. split; [reflexivity|]. unfold good_explicit. split; [apply GB; cbn; intuition discriminate|]. split; [|split; [right; reflexivity|split; [left; reflexivity|split; cbn; tauto]]].
      unfold good_jastrow. right. right. left. split; [reflexivity|]. intros _. apply GB. cbn. intuition discriminate.
  - intros [(_ & _ & H)|(_ & _ & H)]; discriminate.
  - intros (w & H). discriminate.
Qed.
