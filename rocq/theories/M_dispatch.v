(** * Model of get_model_from_config (vmcnet/models/construct.py 81-557) and of the choice of the model type

    From the model section of a job's configuration, the molecule and the learned parameters to a
    wavefunction.  [None] is a raised exception.  Simplifications: initialisers only choose the
    initial values of the parameters, so only the validation of their names is modelled and every
    statement is for all values of the parameters; dtype is not modelled; sizes are natural numbers. *)
From Coq Require Import String Ascii Reals List Bool Arith ZArith.
From Verif Require Import XReal M_slog M_models M_antisym M_construct.
Import ListNotations.
Local Open Scope R_scope.
Local Open Scope string_scope.

(** jnp.tanh and jax.nn.gelu (default tanh approximation; third-party functions, modelled from their definition). *)
Definition xtanh (x : xr) : xr :=
  match x with Fin r => Fin (tanh r) | PInf => Fin 1 | MInf => Fin (-1) | NaN => NaN end.
Definition xgelu (x : xr) : xr :=
  let cube := xmul (Fin (44715 / 1000000)) (xmul x (xmul x x)) in
  xmul x (xmul (Fin (1 / 2)) (xadd (Fin 1) (xtanh (xmul (Fin (sqrt (2 / PI))) (xadd x cube))))).
(** construct.py 82-88: _get_named_activation_fn. *)
Definition get_named_activation_fn (name : string) : option (xr -> xr) :=
  if String.eqb name "tanh" then Some xtanh else if String.eqb name "gelu" then Some xgelu else None.

(** weights.py 28-49: the names with an initialiser. *)
Definition valid_kernel_initializers : list string :=
  ["zeros"; "ones"; "uniform"; "normal"; "orthogonal"; "delta_orthogonal"; "xavier_normal"; "xavier_uniform"; "glorot_normal";
   "glorot_uniform"; "kaiming_normal"; "kaiming_uniform"; "he_normal"; "he_uniform"; "lecun_normal"; "lecun_uniform"].
Definition valid_bias_initializers : list string := ["zeros"; "ones"; "uniform"; "normal"].
Definition named_in (names : list string) (name : string) : bool := existsb (String.eqb name) names.
(** weights.py 53-116: get_kernel_init_from_config and get_bias_init_from_config raise ValueError for any other name. *)
Definition kernel_init (name : string) : bool := named_in valid_kernel_initializers name.
Definition bias_init (name : string) : bool := named_in valid_bias_initializers name.

(** ** Configuration sections (train/default_config.py 112-280) *)
(** default_config.py 121-127. *)
Record streams_config := { sc_2e : bool; sc_ei_norm : bool; sc_ei_norm_softening : xr; sc_ee_norm : bool; sc_ee_norm_softening : xr }.
(** construct.py 422-432: get_compute_input_streams_from_config; the softening terms keep their default 0.0 (equivariance.py 42-44). *)
Definition get_compute_input_streams_from_config (c : streams_config) (ion_pos : arr2) : stream_options :=
  {| so_ion_pos := Some ion_pos; so_2e := sc_2e c; so_ei_norm := sc_ei_norm c; so_ei_soft := Fin 0; so_ee_norm := sc_ee_norm c; so_ee_soft := Fin 0 |}.

(** default_config.py 129-152. *)
Record backflow_config := { bc_ndense_list : list (list nat);
  bc_kernel_init_unmixed : string; bc_kernel_init_mixed : string; bc_kernel_init_transformer : string; bc_kernel_init_2e_1e : string; bc_kernel_init_2e_2e : string;
  bc_bias_init_1e : string; bc_bias_init_2e : string; bc_bias_init_transformer : string; bc_activation_fn : string; bc_use_bias : bool;
  bc_one_electron_skip : bool; bc_one_electron_skip_scale : xr; bc_two_electron_skip : bool; bc_two_electron_skip_scale : xr;
  bc_cyclic_spins : bool; bc_use_transformer : bool; bc_num_heads : nat }.
(** The learned parameters of one residual block; those of an attention layer, of a bias or of a two-electron layer are unused if there is none. *)
Record block_params := { bp_unmixed : nat -> nat -> xr; bp_bias : nat -> xr; bp_mixed : nat -> nat -> xr; bp_2e : nat -> nat -> xr;
  bp_q : nat -> nat -> nat -> xr; bp_qb : nat -> nat -> xr; bp_k : nat -> nat -> nat -> xr; bp_kb : nat -> nat -> xr;
  bp_v : nat -> nat -> nat -> xr; bp_vb : nat -> nat -> xr; bp_o : nat -> nat -> nat -> xr; bp_ob : nat -> xr;
  bp_two : nat -> nat -> xr; bp_two_bias : nat -> xr }.
Definition if_used {A} (b : bool) (a : A) : option A := if b then Some a else None.

(** equivariance.py 294-301: head dimension ndense * num_heads / num_heads. *)
Definition attention_of (p : block_params) (ndense num_heads : nat) : attention_params :=
  {| at_heads := num_heads; at_dim := ndense; at_out := ndense; at_q := bp_q p; at_qb := bp_qb p; at_k := bp_k p; at_kb := bp_kb p;
     at_v := bp_v p; at_vb := bp_vb p; at_o := bp_o p; at_ob := bp_ob p |}.
(** construct.py 514-644: get_residual_blocks_for_ferminet_backflow; an empty entry of ndense_list is an IndexError. *)
Fixpoint get_residual_blocks (spin_split : particle_split) (ndense_list : list (list nat)) (act : xr -> xr) (use_bias skip1 : bool) (scale1 : xr)
  (skip2 : bool) (scale2 : xr) (cyclic use_transformer : bool) (num_heads : nat) (i : nat) (theta : nat -> block_params) : option (list block) :=
  match ndense_list with
  | [] => Some []
  | [] :: _ => None
  | (n1 :: rest) :: r =>
      let p := theta i in
      let one := {| l1_split := spin_split; l1_ndense := n1; l1_unmixed := bp_unmixed p; l1_bias := if_used use_bias (bp_bias p); l1_mixed := bp_mixed p;
                    l1_2e := bp_2e p; l1_attention := if_used use_transformer (attention_of p n1 num_heads); l1_act := act;
                    l1_skip := skip1; l1_scale := scale1; l1_cyclic := cyclic |} in
      let two := match rest with
                 | [] => None
                 | n2 :: _ => Some {| l2_ndense := n2; l2_kernel := bp_two p; l2_bias := if_used use_bias (bp_two_bias p); l2_act := act; l2_skip := skip2; l2_scale := scale2 |}
                 end in
      option_map (cons {| b_one := one; b_two := two |})
        (get_residual_blocks spin_split r act use_bias skip1 scale1 skip2 scale2 cyclic use_transformer num_heads (S i) theta)
  end.
(** construct.py 435-481: get_backflow_from_config. *)
Definition get_backflow_from_config (c : backflow_config) (spin_split : particle_split) (theta : nat -> block_params) : option (list block) :=
  check (kernel_init (bc_kernel_init_transformer c) && kernel_init (bc_kernel_init_unmixed c) && kernel_init (bc_kernel_init_mixed c) &&
         kernel_init (bc_kernel_init_2e_1e c) && kernel_init (bc_kernel_init_2e_2e c) &&
         bias_init (bc_bias_init_transformer c) && bias_init (bc_bias_init_1e c) && bias_init (bc_bias_init_2e c))
    (do act <- get_named_activation_fn (bc_activation_fn c);
     get_residual_blocks spin_split (bc_ndense_list c) act (bc_use_bias c) (bc_one_electron_skip c) (bc_one_electron_skip_scale c)
       (bc_two_electron_skip c) (bc_two_electron_skip_scale c) (bc_cyclic_spins c) (bc_use_transformer c) (bc_num_heads c) 0 theta).

(** default_config.py 154-162. *)
Record resnet_config := { rc_ndense : nat; rc_nlayers : nat; rc_activation : string; rc_kernel_init : string; rc_bias_init : string; rc_use_bias : bool; rc_mode : string }.
(** str.upper on ASCII. *)
Definition upper_char (a : ascii) : ascii :=
  let n := nat_of_ascii a in if Nat.leb 97 n && Nat.leb n 122 then ascii_of_nat (n - 32) else a.
Fixpoint upper (s : string) : string := match s with EmptyString => EmptyString | String a r => String (upper_char a) (upper r) end.
(** construct.py 73-78: DeterminantFnMode[name]; KeyError otherwise. *)
Definition determinant_fn_mode (name : string) : option det_mode :=
  if String.eqb name "SIGN_COVARIANCE" then Some SIGN_COVARIANCE
  else if String.eqb name "PARALLEL_EVEN" then Some PARALLEL_EVEN
  else if String.eqb name "PAIRWISE_EVEN" then Some PAIRWISE_EVEN else None.

(** The learned parameters of a SimpleResNet (core.py 295-361): nlayers - 1 inner layers and the final one without bias. *)
Record resnet_params := { rp_inner : nat -> (nat -> nat -> xr) * (nat -> xr); rp_final : nat -> nat -> xr }.
Definition inner_layers (nlayers : nat) (use_bias : bool) (p : resnet_params) : list ((nat -> nat -> xr) * option (nat -> xr)) :=
  map (fun i => (fst (rp_inner p i), if_used use_bias (snd (rp_inner p i)))) (seq 0 (nlayers - 1)).
Definition resnet_of (nlayers : nat) (use_bias : bool) (p : resnet_params) : resnet :=
  {| rn_inner := inner_layers nlayers use_bias p; rn_final := rp_final p |}.

(** default_config.py 164-179.  The entry determinant_fn_mode is read nowhere. *)
Record ferminet_config := { fc_streams : streams_config; fc_backflow : backflow_config; fc_ndeterminants : nat;
  fc_kernel_init_orbital_linear : string; fc_kernel_init_envelope_dim : string; fc_kernel_init_envelope_ion : string; fc_envelope_softening : xr;
  fc_bias_init_orbital_linear : string; fc_orbitals_use_bias : bool; fc_isotropic_decay : bool; fc_use_det_resnet : bool; fc_det_resnet : resnet_config;
  fc_determinant_fn_mode : string; fc_full_det : bool }.
(** default_config.py 212-236: the invariance section of the two models with hidden fermions; [hc_streams] is unused by the extended model. *)
Record hidden_config := { hc_net : ferminet_config; hc_nhidden : list nat; hc_separate_backflow : bool; hc_streams : streams_config; hc_backflow : backflow_config;
  hc_kernel_initializer : string; hc_bias_initializer : string; hc_use_bias : bool }.
(** default_config.py 181-204. *)
Record antieq_model_config := { qc_streams : streams_config; qc_backflow : backflow_config; qc_kernel_init_orbital_linear : string;
  qc_kernel_init_envelope_dim : string; qc_kernel_init_envelope_ion : string; qc_bias_init_orbital_linear : string;
  qc_orbitals_use_bias : bool; qc_isotropic_decay : bool; qc_use_products_covariance : bool; qc_invariance : backflow_config;
  qc_products_kernel_init : string; qc_products_use_weights : bool; qc_multiply_by_eq_features : bool }.
(** default_config.py 241-280. *)
Record jastrow_config := { jc_type : string; jc_one_body_kernel_init : string; jc_init_ee_strength : xr; jc_trainable : bool;
  jc_use_separate_backflow : bool; jc_backflow : backflow_config }.
Record explicit_config := { xc_streams : streams_config; xc_backflow : backflow_config; xc_antisym_type : string; xc_rank : nat; xc_ndense_resnet : nat;
  xc_nlayers_resnet : nat; xc_kernel_init_resnet : string; xc_bias_init_resnet : string; xc_activation_fn_resnet : string; xc_resnet_use_bias : bool;
  xc_jastrow : jastrow_config }.

(** The model section of the configuration of a job: a type and one section per type. *)
Record model_sections := { ms_type : string; ms_ferminet : ferminet_config; ms_embedded : hidden_config; ms_extended : hidden_config;
  ms_cofactor : antieq_model_config; ms_per_particle : antieq_model_config; ms_explicit : explicit_config }.
(** The section that remains, with its type. *)
Inductive model_config := FermiNetConfig (c : ferminet_config) | EmbeddedConfig (c : hidden_config) | ExtendedConfig (c : hidden_config)
  | CofactorConfig (c : antieq_model_config) | PerParticleConfig (c : antieq_model_config) | ExplicitConfig (c : explicit_config).
(** default_config.py 97-109: choose_model_type_in_model_config; a KeyError for any other type. *)
Definition choose_model_type_in_model_config (m : model_sections) : option model_config :=
  let t := ms_type m in
  if String.eqb t "ferminet" then Some (FermiNetConfig (ms_ferminet m))
  else if String.eqb t "embedded_particle_ferminet" then Some (EmbeddedConfig (ms_embedded m))
  else if String.eqb t "extended_orbital_matrix_ferminet" then Some (ExtendedConfig (ms_extended m))
  else if String.eqb t "orbital_cofactor_net" then Some (CofactorConfig (ms_cofactor m))
  else if String.eqb t "per_particle_dets_net" then Some (PerParticleConfig (ms_per_particle m))
  else if String.eqb t "explicit_antisym" then Some (ExplicitConfig (ms_explicit m))
  else None.

(** ** Learned parameters of a model *)
Record orbital_params := { op_kernel : nat -> nat -> xr; op_bias : nat -> xr; op_iso : nat -> xr; op_aniso : nat -> nat -> nat -> xr; op_ion : nat -> nat -> xr }.
Record model_params := { mp_backflow : nat -> block_params; mp_second_backflow : nat -> block_params; mp_orbitals : nat -> orbital_params;
  mp_hidden : nat -> (nat -> nat -> xr) * (nat -> xr); mp_det_resnet : resnet_params; mp_resnets : nat -> nat -> resnet_params;
  mp_products : nat -> nat -> xr; mp_decay : xr; mp_ei : nat -> xr; mp_ee : xr }.
Definition orbital_split_of (use_bias : bool) (p : orbital_params) : orbital_split :=
  {| o_norb := 0; o_kernel := op_kernel p; o_bias := if_used use_bias (op_bias p); o_iso := op_iso p; o_aniso := op_aniso p; o_ion := op_ion p |}.

(** A built wavefunction, and its value at electron positions. *)
Inductive wavefunction := WFermiNet (m : ferminet) | WEmbedded (e : embedded) | WExtended (x : extended) | WAntieq (a : antieq_net) | WExplicit (e : explicit_net).
Definition slog_psi (w : wavefunction) (elec_pos : arr2) : option slog :=
  match w with
  | WFermiNet m => ferminet_call m elec_pos
  | WEmbedded e => embedded_call e elec_pos
  | WExtended x => extended_call x elec_pos
  | WAntieq a => antieq_net_call a elec_pos
  | WExplicit e => explicit_call e elec_pos
  end.
(** construct.py 99-105: slog_psi_to_log_psi_apply. *)
Definition log_psi (w : wavefunction) (elec_pos : arr2) : option xr := option_map snd (slog_psi w elec_pos).

(** construct.py 134-172, 193-214, 237-258: the part common to the three FermiNet types, on a given backflow. *)
Definition build_ferminet (c : ferminet_config) (spin_split : particle_split) (ion_pos : arr2) (bs : list block) (theta : model_params) : option ferminet :=
  let rc := fc_det_resnet c in
  do determinant_fn <- (if fc_use_det_resnet c
                        then do act <- get_named_activation_fn (rc_activation rc);
                             check (kernel_init (rc_kernel_init rc) && bias_init (rc_bias_init rc))
                               (Some (Some (resnet_determinant_fn (rc_ndense rc) act (inner_layers (rc_nlayers rc) (rc_use_bias rc) (mp_det_resnet theta)) (rp_final (mp_det_resnet theta)))))
                        else Some None);
  do mode <- determinant_fn_mode (upper (rc_mode rc));
  check (kernel_init (fc_kernel_init_orbital_linear c) && kernel_init (fc_kernel_init_envelope_dim c) && kernel_init (fc_kernel_init_envelope_ion c) &&
         bias_init (fc_bias_init_orbital_linear c))
    (Some {| fn_split := spin_split; fn_streams := get_compute_input_streams_from_config (fc_streams c) ion_pos; fn_backflow := bs; fn_ndet := fc_ndeterminants c;
             fn_orbitals := fun i => orbital_split_of (fc_orbitals_use_bias c) (mp_orbitals theta i); fn_soft := fc_envelope_softening c;
             fn_isotropic := fc_isotropic_decay c; fn_det_fn := determinant_fn; fn_mode := mode; fn_full_det := fc_full_det c |}).

(** Addition of integer vectors with broadcasting of a one-element vector; TypeError otherwise. *)
Definition add_counts (a b : list nat) : option (list nat) :=
  if Nat.eqb (length a) (length b) then Some (zipw Nat.add a b)
  else match a, b with
       | [x], _ => Some (map (Nat.add x) b)
       | _, [y] => Some (map (fun x => (x + y)%nat) a)
       | _, _ => None
       end.
(** invariance.py 121-139: one dense layer per spin. *)
Definition hidden_dense (use_bias : bool) (theta : model_params) (i : nat) : mean_dense :=
  {| md_features := 0; md_kernel := fst (mp_hidden theta i); md_bias := if_used use_bias (snd (mp_hidden theta i)) |}.

(** construct.py 484-511: get_sign_covariance_from_config.  The backflow of the second case is built when the model is called, so a wrong name
    in it raises then; here it raises at construction. *)
Definition get_sign_covariance_from_config (c : antieq_model_config) (spin_split : particle_split) (theta : model_params) : option sign_covariance :=
  if qc_use_products_covariance c
  then check (kernel_init (qc_products_kernel_init c)) (Some (Products (if_used (qc_products_use_weights c) (mp_products theta))))
  else option_map OddBackflow (get_backflow_from_config (qc_invariance c) spin_split (mp_second_backflow theta)).
(** The Python value of an option as the number or the flag the orbital layer uses it as. *)
Definition as_flag (v : option pyval) : bool := match v with Some (VBool b) => b | Some (VNum r) => if Req_EM_T r 0 then false else true | _ => false end.
Definition as_number (v : option pyval) : xr := match v with Some (VBool b) => Fin (if b then 1 else 0) | Some (VNum r) => Fin r | _ => Fin 0 end.
(** construct.py 275-326; the orbital layers are constructed with positional arguments (M_antisym, C53), so the options are looked up under the
    names they arrive with.  The per-particle layer has no softening. *)
Definition build_antieq (kind : antieq_kind) (c : antieq_model_config) (spin_split : particle_split) (ion_pos : arr2) (bs : list block) (theta : model_params)
  : option antieq_net :=
  let ac := {| ac_split := VOther 0; ac_linear := VOther 1; ac_dim := VOther 2; ac_ion := VOther 3; ac_bias_init := VOther 4;
               ac_orbitals_use_bias := qc_orbitals_use_bias c; ac_isotropic_decay := qc_isotropic_decay c |} in
  check (kernel_init (qc_kernel_init_orbital_linear c) && kernel_init (qc_kernel_init_envelope_dim c) && kernel_init (qc_kernel_init_envelope_ion c) &&
         bias_init (qc_bias_init_orbital_linear c))
    (do cov <- get_sign_covariance_from_config c spin_split theta;
     do bound <- (match kind with Cofactor => cofactor_orbital_layer ac (VOther 5) | PerParticle => per_particle_orbital_layer ac (VOther 5) end);
     Some {| an_split := spin_split; an_streams := get_compute_input_streams_from_config (qc_streams c) ion_pos; an_backflow := bs; an_kind := kind;
             an_orbitals := fun i => orbital_split_of (as_flag (lookup_field use_bias bound)) (mp_orbitals theta i);
             an_soft := as_number (lookup_field envelope_softening bound); an_isotropic := as_flag (lookup_field isotropic_decay bound);
             an_cov := cov; an_multiply := qc_multiply_by_eq_features c |}).

(** construct.py 331-348, 350-370.  A number of charges different from the number of ions raises (the broadcasting of a single charge is not modelled). *)
Definition two_body_of (c : jastrow_config) (ion_pos : arr2) (ion_charges : list xr) (theta : model_params) : option (list xr * xr) :=
  check (Nat.eqb (length ion_charges) (length ion_pos))
    (Some (if jc_trainable c then (map (mp_ei theta) (seq 0 (length ion_pos)), mp_ee theta) else (ion_charges, jc_init_ee_strength c))).
Definition jastrow_backflow_of (c : jastrow_config) (spin_split : particle_split) (theta : model_params) : option (option (list block)) :=
  if jc_use_separate_backflow c then option_map Some (get_backflow_from_config (jc_backflow c) spin_split (mp_second_backflow theta)) else Some None.
Definition build_jastrow (c : jastrow_config) (spin_split : particle_split) (ion_pos : arr2) (ion_charges : list xr) (theta : model_params) : option jastrow :=
  if String.eqb (jc_type c) "one_body_decay" then check (kernel_init (jc_one_body_kernel_init c)) (Some (OneBodyDecay (mp_decay theta)))
  else if String.eqb (jc_type c) "two_body_decay" then
    do s <- two_body_of c ion_pos ion_charges theta; Some (TwoBodyDecay ion_pos ion_charges (fst s) (snd s))
  else if String.eqb (jc_type c) "backflow_based" then option_map BackflowBased (jastrow_backflow_of c spin_split theta)
  else if String.eqb (jc_type c) "two_body_decay_and_backflow_based" then
    do s <- two_body_of c ion_pos ion_charges theta;
    do bf <- jastrow_backflow_of c spin_split theta;
    Some (AddedJastrow ion_pos ion_charges (fst s) (snd s) bf)
  else None.
(** construct.py 371-415. *)
Definition build_explicit (c : explicit_config) (spin_split : particle_split) (ion_pos : arr2) (ion_charges : list xr) (bs : list block) (theta : model_params)
  : option explicit_net :=
  do j <- build_jastrow (xc_jastrow c) spin_split ion_pos ion_charges theta;
  do kind <- (if String.eqb (xc_antisym_type c) "factorized"
              then Some (Factorized (xc_rank c) (fun b k => resnet_of (xc_nlayers_resnet c) (xc_resnet_use_bias c) (mp_resnets theta b k)))
              else if String.eqb (xc_antisym_type c) "generic"
              then Some (Generic (resnet_of (xc_nlayers_resnet c) (xc_resnet_use_bias c) (mp_resnets theta 0 0)))
              else None);
  do act <- get_named_activation_fn (xc_activation_fn_resnet c);
  check (kernel_init (xc_kernel_init_resnet c) && bias_init (xc_bias_init_resnet c))
    (Some {| en_split := spin_split; en_streams := get_compute_input_streams_from_config (xc_streams c) ion_pos; en_backflow := bs; en_jastrow := j;
             en_ndense := xc_ndense_resnet c; en_act := act; en_antisym := kind |}).

(** construct.py 108-419: get_model_from_config. *)
Definition get_model_from_config (c : model_config) (nelec : list nat) (ion_pos : arr2) (ion_charges : list xr) (theta : model_params) : option wavefunction :=
  let spin_split := At (get_spin_split nelec) in
  match c with
  | FermiNetConfig c =>
      do bs <- get_backflow_from_config (fc_backflow c) spin_split (mp_backflow theta);
      option_map WFermiNet (build_ferminet c spin_split ion_pos bs theta)
  | EmbeddedConfig h =>
      let c := hc_net h in
      do total_nelec <- add_counts (hc_nhidden h) nelec;
      do bs <- get_backflow_from_config (fc_backflow c) (At (get_spin_split total_nelec)) (mp_backflow theta);
      do invariance_backflow <- get_backflow_from_config (hc_backflow h) spin_split (mp_second_backflow theta);
      do net <- build_ferminet c spin_split ion_pos bs theta;
      check (kernel_init (hc_kernel_initializer h) && bias_init (hc_bias_initializer h))
        (Some (WEmbedded {| em_net := net; em_nhidden := hc_nhidden h; em_streams := get_compute_input_streams_from_config (hc_streams h) ion_pos;
                            em_backflow := invariance_backflow; em_dense := hidden_dense (hc_use_bias h) theta |}))
  | ExtendedConfig h =>
      let c := hc_net h in
      do bs <- get_backflow_from_config (fc_backflow c) spin_split (mp_backflow theta);
      do invariance_backflow <- (if hc_separate_backflow h
                                 then option_map Some (get_backflow_from_config (hc_backflow h) spin_split (mp_second_backflow theta)) else Some None);
      do net <- build_ferminet c spin_split ion_pos bs theta;
      check (kernel_init (hc_kernel_initializer h) && bias_init (hc_bias_initializer h))
        (Some (WExtended {| ex_net := net; ex_nhidden := hc_nhidden h; ex_backflow := invariance_backflow; ex_dense := hidden_dense (hc_use_bias h) theta |}))
  | CofactorConfig q =>
      do bs <- get_backflow_from_config (qc_backflow q) spin_split (mp_backflow theta);
      option_map WAntieq (build_antieq Cofactor q spin_split ion_pos bs theta)
  | PerParticleConfig q =>
      do bs <- get_backflow_from_config (qc_backflow q) spin_split (mp_backflow theta);
      option_map WAntieq (build_antieq PerParticle q spin_split ion_pos bs theta)
  | ExplicitConfig x =>
      do bs <- get_backflow_from_config (xc_backflow x) spin_split (mp_backflow theta);
      option_map WExplicit (build_explicit x spin_split ion_pos ion_charges bs theta)
  end.
(** parse_config_flags.py 48 and runners.py 109-116: from the model section to the wavefunction of the job. *)
Definition model_of_job (m : model_sections) (nelec : list nat) (ion_pos : arr2) (ion_charges : list xr) (theta : model_params) : option wavefunction :=
  do c <- choose_model_type_in_model_config m; get_model_from_config c nelec ion_pos ion_charges theta.
