(** * Vocabulary for C84: the wavefunction as a function of the positions of the electrons, and the configurations for which it is smooth *)
From Coq Require Import String Reals List Arith.
From Verif Require Import XReal M_io M_vmc M_mcmc M_physics M_setup M_slog M_models M_antisym M_construct M_dispatch M_optax M_run M_start M_job S_models S_mcmc S_start S_optax S_energy S_physics S_setup S_job S_finite.
Import ListNotations.
Local Open Scope R_scope.
Local Open Scope string_scope.

(** The real number that a sign and the logarithm of an absolute value stand for (0 if the logarithm is not a number). *)
Definition number_of (p : slog) : R := match p with (Fin s, Fin l) => s * exp l | _ => 0 end.
(** The array of the positions of n electrons with d coordinates each, as a model gets it. *)
Definition position_array (n d : nat) (y : nat -> nat -> R) : arr2 := map (fun i => map (fun k => Fin (y i k)) (seq 0 d)) (seq 0 n).
(** The value of a wavefunction (0 if it raises an exception). *)
Definition psi_at (w : wavefunction) (n d : nat) (y : nat -> nat -> R) : R :=
  match slog_psi w (position_array n d y) with Some p => number_of p | None => 0 end.

(** The envelopes have no kinks away from the ions: decay is isotropic, or a softening is set. *)
Definition smooth_envelopes (c : ferminet_config) : Prop := fc_isotropic_decay c = true \/ fc_envelope_softening c <> Fin 0.
(** Which options give a smooth wavefunction: smooth envelopes (in the cofactor network the envelope softening is 1 if the orbitals have a bias and 0 otherwise, and the decay is
    never isotropic, because of the arguments of its layer: C53). *)
Definition smooth_model (m : model_sections) : Prop :=
  (ms_type m = "ferminet" /\ smooth_envelopes (ms_ferminet m)) \/
  (ms_type m = "embedded_particle_ferminet" /\ smooth_envelopes (hc_net (ms_embedded m))) \/
  (ms_type m = "extended_orbital_matrix_ferminet" /\ smooth_envelopes (hc_net (ms_extended m))) \/
  (ms_type m = "orbital_cofactor_net" /\ qc_orbitals_use_bias (ms_cofactor m) = true) \/
  (ms_type m = "per_particle_dets_net" /\ qc_isotropic_decay (ms_per_particle m) = true) \/
  ms_type m = "explicit_antisym".

(** The hidden particles of an embedded-particle FermiNet (if it is one) and the electrons are all at different places, and none at an ion. *)
Definition hidden_particles_apart (w : wavefunction) (ions x : arr2) : Prop :=
  forall e z split, w = WEmbedded e -> embed e x = Some (z, split) -> NoDup z /\ forall a, In a z -> ~ In a ions.
(** The rows of learned features whose norms a backflow-based Jastrow factor of an explicitly antisymmetrised model averages: its own backflow's, or the model's. *)
Definition jastrow_features (e : explicit_net) (x : arr2) : arr2 :=
  match compute_input_streams (en_streams e) x with
  | (Rows i1, i2, _, _) =>
      match en_jastrow e with
      | BackflowBased (Some b) | AddedJastrow _ _ _ _ (Some b) => backflow b i1 i2
      | BackflowBased None | AddedJastrow _ _ _ _ None => backflow (en_backflow e) i1 i2
      | OneBodyDecay _ | TwoBodyDecay _ _ _ _ => []
      end
  | _ => []
  end.
(** None of these rows is zero. *)
Definition jastrow_features_nonzero (w : wavefunction) (x : arr2) : Prop :=
  forall e row, w = WExplicit e -> In row (jastrow_features e x) -> exists a, In a row /\ a <> Fin 0.

(** The configured wavefunction of a job with parameters p. *)
Definition configured_psi {P1} (theta : P1 -> model_params) (c : job_config) (p : P1) (y : positions) : R :=
  match model_of_job (jc_model c) (jc_nelec c) (map (map Fin) (jc_ion_pos c)) (map Fin (jc_ion_charges c)) (theta p) with
  | Some w => psi_at w (electron_count c) (space_dim c) y
  | None => 0
  end.
(** At every walker all electrons are at different places, none at an ion (nor at a hidden particle), no features of a backflow-based Jastrow factor vanish, and the wavefunction is not zero. *)
Definition regular_walkers {P1} (theta : P1 -> model_params) (c : job_config) (p : P1) (datas : list (padata move_metadata)) : Prop :=
  forall y, In y (all_walkers c datas) ->
    no_coincidence (space_dim c) 0 (electron_count c) y /\
    no_ion_coincidence (space_dim c) 0 (electron_count c) (length (jc_ion_pos c)) y (fun j k => nth k (nth j (jc_ion_pos c) []) 0) /\
    (forall w, model_of_job (jc_model c) (jc_nelec c) (map (map Fin) (jc_ion_pos c)) (map Fin (jc_ion_charges c)) (theta p) = Some w ->
       hidden_particles_apart w (map (map Fin) (jc_ion_pos c)) (position_array (electron_count c) (space_dim c) y) /\
       jastrow_features_nonzero w (position_array (electron_count c) (space_dim c) y)) /\
    configured_psi theta c p y <> 0.
(** A job whose wavefunction is smooth: a smooth model, at least two spin species, each with electrons, finite numbers in the model's options, ions at different places. *)
Definition smooth_job (c : job_config) : Prop :=
  smooth_model (jc_model c) /\ (2 <= length (jc_nelec c))%nat /\ Forall (fun n => (0 < n)%nat) (jc_nelec c) /\ finite_sections (jc_model c) /\
  no_coincidence (space_dim c) 0 (length (jc_ion_charges c)) (fun j k => nth k (nth j (jc_ion_pos c) []) 0).
