(** * Vocabulary for C82: configured numbers and parameters that are finite, and the models that sum logarithms *)
From Coq Require Import String Reals List Arith.
From Verif Require Import XReal Rsum Det M_slog M_models M_antisym M_construct M_dispatch S_models S_construct.
Import ListNotations.
Local Open Scope string_scope.

Definition finite (a : xr) : Prop := isfin a = true.
Definition finite_block (p : block_params) : Prop :=
  (forall i f, finite (bp_unmixed p i f)) /\ (forall f, finite (bp_bias p f)) /\ (forall i f, finite (bp_mixed p i f)) /\ (forall i f, finite (bp_2e p i f)) /\
  (forall i h c, finite (bp_q p i h c)) /\ (forall h c, finite (bp_qb p h c)) /\ (forall i h c, finite (bp_k p i h c)) /\ (forall h c, finite (bp_kb p h c)) /\
  (forall i h c, finite (bp_v p i h c)) /\ (forall h c, finite (bp_vb p h c)) /\ (forall i h c, finite (bp_o p i h c)) /\ (forall c, finite (bp_ob p c)) /\
  (forall i f, finite (bp_two p i f)) /\ (forall f, finite (bp_two_bias p f)).
Definition finite_orbital (p : orbital_params) : Prop :=
  (forall i f, finite (op_kernel p i f)) /\ (forall f, finite (op_bias p f)) /\ (forall f, finite (op_iso p f)) /\ (forall i a f, finite (op_aniso p i a f)) /\ (forall f i, finite (op_ion p f i)).
Definition finite_resnet (p : resnet_params) : Prop :=
  (forall l i f, finite (fst (rp_inner p l) i f)) /\ (forall l f, finite (snd (rp_inner p l) f)) /\ (forall i f, finite (rp_final p i f)).
(** Every learned parameter is a finite number. *)
Definition finite_params (t : model_params) : Prop :=
  (forall i, finite_block (mp_backflow t i)) /\ (forall i, finite_block (mp_second_backflow t i)) /\ (forall i, finite_orbital (mp_orbitals t i)) /\
  (forall s i f, finite (fst (mp_hidden t s) i f)) /\ (forall s f, finite (snd (mp_hidden t s) f)) /\ finite_resnet (mp_det_resnet t) /\ (forall b k, finite_resnet (mp_resnets t b k)) /\
  (forall i f, finite (mp_products t i f)) /\ finite (mp_decay t) /\ (forall i, finite (mp_ei t i)) /\ finite (mp_ee t).
(** So is every real number in the sections of the configuration. *)
Definition finite_backflow_config (c : backflow_config) : Prop := finite (bc_one_electron_skip_scale c) /\ finite (bc_two_electron_skip_scale c).
Definition finite_net_config (c : ferminet_config) : Prop := finite_backflow_config (fc_backflow c) /\ finite (fc_envelope_softening c).
Definition finite_hidden_config (h : hidden_config) : Prop := finite_net_config (hc_net h) /\ finite_backflow_config (hc_backflow h).
Definition finite_antieq_config (c : antieq_model_config) : Prop := finite_backflow_config (qc_backflow c) /\ finite_backflow_config (qc_invariance c).
Definition finite_sections (m : model_sections) : Prop :=
  finite_net_config (ms_ferminet m) /\ finite_hidden_config (ms_embedded m) /\ finite_hidden_config (ms_extended m) /\ finite_antieq_config (ms_cofactor m) /\ finite_antieq_config (ms_per_particle m) /\
  finite_backflow_config (xc_backflow (ms_explicit m)) /\ finite_backflow_config (jc_backflow (xc_jastrow (ms_explicit m))) /\ finite (jc_init_ee_strength (xc_jastrow (ms_explicit m))).

(** The models that add determinants through their logarithms: the FermiNets without a determinant resnet and the factorized antisymmetry. *)
Definition sums_logs (m : model_sections) : Prop :=
  (ms_type m = "ferminet" /\ fc_use_det_resnet (ms_ferminet m) = false) \/
  (ms_type m = "embedded_particle_ferminet" /\ fc_use_det_resnet (hc_net (ms_embedded m)) = false) \/
  (ms_type m = "extended_orbital_matrix_ferminet" /\ fc_use_det_resnet (hc_net (ms_extended m)) = false) \/
  (ms_type m = "explicit_antisym" /\ xc_antisym_type (ms_explicit m) = "factorized").

(** The real matrix of an array and its determinant. *)
Definition det_of (a : arr2) : R := Det.det (length a) (fun i j => val (nth j (nth i a []) (Fin 0))).
(** The k-th determinant of a FermiNet with these orbital matrices, one list of matrices per spin: of the stacked k-th matrices, or the product over the spins. *)
Definition kth_determinant (full : bool) (orbitals : list (list arr2)) (k : nat) : R :=
  let kth := map (fun spin => nth k spin []) orbitals in
  if full then det_of (concat kth) else fold_right Rmult 1%R (map det_of kth).
