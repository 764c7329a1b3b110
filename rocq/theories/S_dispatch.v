(** * Specification vocabulary for the model a job is configured with (C72) *)
From Coq Require Import String Reals List Arith.
From Verif Require Import XReal M_slog M_models M_antisym M_construct M_dispatch S_models.
Import ListNotations.
Local Open Scope string_scope.

(** Names the documentation lists. *)
Definition known_kernel_init (name : string) : Prop :=
  In name ["zeros"; "ones"; "uniform"; "normal"; "orthogonal"; "delta_orthogonal"; "xavier_normal"; "xavier_uniform"; "glorot_normal"; "glorot_uniform";
           "kaiming_normal"; "kaiming_uniform"; "he_normal"; "he_uniform"; "lecun_normal"; "lecun_uniform"].
Definition known_bias_init (name : string) : Prop := In name ["zeros"; "ones"; "uniform"; "normal"].
Definition known_activation (name : string) : Prop := name = "tanh" \/ name = "gelu".
Definition known_mode (name : string) : Prop := In (upper name) ["SIGN_COVARIANCE"; "PARALLEL_EVEN"; "PAIRWISE_EVEN"].

(** ** Which configurations are accepted *)
Definition good_backflow (c : backflow_config) : Prop :=
  Forall known_kernel_init [bc_kernel_init_unmixed c; bc_kernel_init_mixed c; bc_kernel_init_transformer c; bc_kernel_init_2e_1e c; bc_kernel_init_2e_2e c] /\
  Forall known_bias_init [bc_bias_init_1e c; bc_bias_init_2e c; bc_bias_init_transformer c] /\
  known_activation (bc_activation_fn c) /\ ~ In [] (bc_ndense_list c).
(** The mode of the determinant network must be a known one even if that network is not used. *)
Definition good_ferminet (c : ferminet_config) : Prop :=
  Forall known_kernel_init [fc_kernel_init_orbital_linear c; fc_kernel_init_envelope_dim c; fc_kernel_init_envelope_ion c] /\
  known_bias_init (fc_bias_init_orbital_linear c) /\ known_mode (rc_mode (fc_det_resnet c)) /\
  (fc_use_det_resnet c = true ->
   known_activation (rc_activation (fc_det_resnet c)) /\ known_kernel_init (rc_kernel_init (fc_det_resnet c)) /\ known_bias_init (rc_bias_init (fc_det_resnet c))).
Definition good_antieq (c : antieq_model_config) : Prop :=
  good_backflow (qc_backflow c) /\
  Forall known_kernel_init [qc_kernel_init_orbital_linear c; qc_kernel_init_envelope_dim c; qc_kernel_init_envelope_ion c] /\
  known_bias_init (qc_bias_init_orbital_linear c) /\
  (qc_use_products_covariance c = true -> known_kernel_init (qc_products_kernel_init c)) /\
  (qc_use_products_covariance c = false -> good_backflow (qc_invariance c)).
Definition good_jastrow (c : jastrow_config) (nion ncharges : nat) : Prop :=
  let own_backflow := jc_use_separate_backflow c = true -> good_backflow (jc_backflow c) in
  (jc_type c = "one_body_decay" /\ known_kernel_init (jc_one_body_kernel_init c)) \/
  (jc_type c = "two_body_decay" /\ ncharges = nion) \/
  (jc_type c = "backflow_based" /\ own_backflow) \/
  (jc_type c = "two_body_decay_and_backflow_based" /\ ncharges = nion /\ own_backflow).
Definition good_explicit (c : explicit_config) (nion ncharges : nat) : Prop :=
  good_backflow (xc_backflow c) /\ good_jastrow (xc_jastrow c) nion ncharges /\
  (xc_antisym_type c = "factorized" \/ xc_antisym_type c = "generic") /\ known_activation (xc_activation_fn_resnet c) /\
  known_kernel_init (xc_kernel_init_resnet c) /\ known_bias_init (xc_bias_init_resnet c).
Definition good_sections (m : model_sections) (nspins nion ncharges : nat) : Prop :=
  let good_hidden h := known_kernel_init (hc_kernel_initializer h) /\ known_bias_init (hc_bias_initializer h) /\ good_ferminet (hc_net h) /\ good_backflow (fc_backflow (hc_net h)) in
  (ms_type m = "ferminet" /\ good_ferminet (ms_ferminet m) /\ good_backflow (fc_backflow (ms_ferminet m))) \/
  (ms_type m = "embedded_particle_ferminet" /\ good_hidden (ms_embedded m) /\ good_backflow (hc_backflow (ms_embedded m)) /\
   let nhidden := length (hc_nhidden (ms_embedded m)) in (nhidden = nspins \/ nhidden = 1 \/ nspins = 1)) \/
  (ms_type m = "extended_orbital_matrix_ferminet" /\ good_hidden (ms_extended m) /\
   (hc_separate_backflow (ms_extended m) = true -> good_backflow (hc_backflow (ms_extended m)))) \/
  (ms_type m = "orbital_cofactor_net" /\ good_antieq (ms_cofactor m)) \/
  (ms_type m = "per_particle_dets_net" /\ good_antieq (ms_per_particle m)) \/
  (ms_type m = "explicit_antisym" /\ good_explicit (ms_explicit m) nion ncharges).

(** The one documented combination that is not antisymmetric (C63): the products readout with weights. *)
Definition weighted_products (m : model_sections) : Prop :=
  let weighted c := qc_use_products_covariance c = true /\ qc_products_use_weights c = true in
  (ms_type m = "orbital_cofactor_net" /\ weighted (ms_cofactor m)) \/ (ms_type m = "per_particle_dets_net" /\ weighted (ms_per_particle m)).

(** ** Changing single options of a configuration *)
Definition soften_streams (ei ee : xr) (c : streams_config) : streams_config :=
  Build_streams_config (sc_2e c) (sc_ei_norm c) ei (sc_ee_norm c) ee.
Definition soften_ferminet (ei ee : xr) (c : ferminet_config) : ferminet_config :=
  Build_ferminet_config (soften_streams ei ee (fc_streams c)) (fc_backflow c) (fc_ndeterminants c) (fc_kernel_init_orbital_linear c) (fc_kernel_init_envelope_dim c)
    (fc_kernel_init_envelope_ion c) (fc_envelope_softening c) (fc_bias_init_orbital_linear c) (fc_orbitals_use_bias c) (fc_isotropic_decay c) (fc_use_det_resnet c)
    (fc_det_resnet c) (fc_determinant_fn_mode c) (fc_full_det c).
Definition soften_hidden (ei ee : xr) (h : hidden_config) : hidden_config :=
  Build_hidden_config (soften_ferminet ei ee (hc_net h)) (hc_nhidden h) (hc_separate_backflow h) (soften_streams ei ee (hc_streams h)) (hc_backflow h)
    (hc_kernel_initializer h) (hc_bias_initializer h) (hc_use_bias h).
Definition soften_antieq (ei ee : xr) (c : antieq_model_config) : antieq_model_config :=
  Build_antieq_model_config (soften_streams ei ee (qc_streams c)) (qc_backflow c) (qc_kernel_init_orbital_linear c) (qc_kernel_init_envelope_dim c)
    (qc_kernel_init_envelope_ion c) (qc_bias_init_orbital_linear c) (qc_orbitals_use_bias c) (qc_isotropic_decay c) (qc_use_products_covariance c) (qc_invariance c)
    (qc_products_kernel_init c) (qc_products_use_weights c) (qc_multiply_by_eq_features c).
Definition soften_explicit (ei ee : xr) (c : explicit_config) : explicit_config :=
  Build_explicit_config (soften_streams ei ee (xc_streams c)) (xc_backflow c) (xc_antisym_type c) (xc_rank c) (xc_ndense_resnet c) (xc_nlayers_resnet c)
    (xc_kernel_init_resnet c) (xc_bias_init_resnet c) (xc_activation_fn_resnet c) (xc_resnet_use_bias c) (xc_jastrow c).
(** The same configuration with other values of ei_norm_softening and ee_norm_softening in every section. *)
Definition with_norm_softening (ei ee : xr) (m : model_sections) : model_sections :=
  Build_model_sections (ms_type m) (soften_ferminet ei ee (ms_ferminet m)) (soften_hidden ei ee (ms_embedded m)) (soften_hidden ei ee (ms_extended m))
    (soften_antieq ei ee (ms_cofactor m)) (soften_antieq ei ee (ms_per_particle m)) (soften_explicit ei ee (ms_explicit m)).
(** The same configuration with another value of determinant_fn_mode. *)
Definition mode_ferminet (name : string) (c : ferminet_config) : ferminet_config :=
  Build_ferminet_config (fc_streams c) (fc_backflow c) (fc_ndeterminants c) (fc_kernel_init_orbital_linear c) (fc_kernel_init_envelope_dim c)
    (fc_kernel_init_envelope_ion c) (fc_envelope_softening c) (fc_bias_init_orbital_linear c) (fc_orbitals_use_bias c) (fc_isotropic_decay c) (fc_use_det_resnet c)
    (fc_det_resnet c) name (fc_full_det c).
Definition with_determinant_fn_mode (name : string) (m : model_sections) : model_sections :=
  let h c := Build_hidden_config (mode_ferminet name (hc_net c)) (hc_nhidden c) (hc_separate_backflow c) (hc_streams c) (hc_backflow c) (hc_kernel_initializer c)
               (hc_bias_initializer c) (hc_use_bias c) in
  Build_model_sections (ms_type m) (mode_ferminet name (ms_ferminet m)) (h (ms_embedded m)) (h (ms_extended m)) (ms_cofactor m) (ms_per_particle m) (ms_explicit m).
(** Only the section of the chosen type matters. *)
Definition same_chosen_section (m m' : model_sections) : Prop :=
  ms_type m = ms_type m' /\
  (ms_type m = "ferminet" -> ms_ferminet m = ms_ferminet m') /\ (ms_type m = "embedded_particle_ferminet" -> ms_embedded m = ms_embedded m') /\
  (ms_type m = "extended_orbital_matrix_ferminet" -> ms_extended m = ms_extended m') /\ (ms_type m = "orbital_cofactor_net" -> ms_cofactor m = ms_cofactor m') /\
  (ms_type m = "per_particle_dets_net" -> ms_per_particle m = ms_per_particle m') /\ (ms_type m = "explicit_antisym" -> ms_explicit m = ms_explicit m').

(** The layers of a backflow are those described by its section of the configuration. *)
Definition layer_as_configured (c : backflow_config) (spin_split : particle_split) (sizes : list nat) (b : block) : Prop :=
  let one := b_one b in
  l1_split one = spin_split /\ nth_error sizes 0 = Some (l1_ndense one) /\ get_named_activation_fn (bc_activation_fn c) = Some (l1_act one) /\
  (l1_bias one <> None <-> bc_use_bias c = true) /\ l1_skip one = bc_one_electron_skip c /\ l1_scale one = bc_one_electron_skip_scale c /\
  l1_cyclic one = bc_cyclic_spins c /\ (l1_attention one <> None <-> bc_use_transformer c = true) /\
  (forall a, l1_attention one = Some a -> at_heads a = bc_num_heads c /\ at_out a = l1_ndense one) /\
  match b_two b with
  | None => length sizes = 1
  | Some two => nth_error sizes 1 = Some (l2_ndense two) /\ get_named_activation_fn (bc_activation_fn c) = Some (l2_act two) /\
                (l2_bias two <> None <-> bc_use_bias c = true) /\ l2_skip two = bc_two_electron_skip c /\ l2_scale two = bc_two_electron_skip_scale c
  end.
