(** * Proofs for C76: translations *)
From Coq Require Import String Reals List Bool Arith Lia Lra ZArith.
From Verif Require Import XReal M_slog M_models M_antisym M_construct M_dispatch S_models S_shift P_split.
Import ListNotations.
Local Open Scope R_scope.

Lemma xsub_moved a b r : xsub (xadd a (Fin r)) (xadd b (Fin r)) = xsub a b.
Proof. destruct a, b; try reflexivity. cbn. f_equal. ring. Qed.
Lemma moved_length v a : length (moved v a) = length a.
Proof. unfold moved. rewrite map_length, seq_length. reflexivity. Qed.
Lemma moved_cons v a l : moved v (a :: l) = xadd a (Fin (v O)) :: moved (fun c => v (S c)) l.
Proof. unfold moved. cbn [length seq map nth]. f_equal. rewrite <- seq_shift, map_map. reflexivity. Qed.
Lemma difference_moved a : forall b v, zipw xsub (moved v a) (moved v b) = zipw xsub a b.
Proof.
  induction a as [|p a IH]; intros [|q b] v; try reflexivity. rewrite !moved_cons.
  change (xsub (xadd p (Fin (v O))) (xadd q (Fin (v O))) :: zipw xsub (moved (fun c => v (S c)) a) (moved (fun c => v (S c)) b) = xsub p q :: zipw xsub a b).
  rewrite IH, xsub_moved. reflexivity.
Qed.
Lemma displacements_moved v x y : displacements (all_moved v x) (all_moved v y) = displacements x y.
Proof.
  unfold displacements, all_moved. rewrite map_map. apply map_ext. intros a. rewrite map_map. apply map_ext. intros b. apply difference_moved.
Qed.
Lemma all_moved_length v x : length (all_moved v x) = length x.
Proof. apply map_length. Qed.
Lemma scale_moved v ions q : chargeless_scale_factor (all_moved v ions) q = chargeless_scale_factor ions q.
Proof. unfold chargeless_scale_factor. rewrite displacements_moved. reflexivity. Qed.
Lemma streams_moved c v ions x :
  compute_input_streams (get_compute_input_streams_from_config c (all_moved v ions)) (all_moved v x) =
  compute_input_streams (get_compute_input_streams_from_config c ions) x.
Proof.
  unfold compute_input_streams, get_compute_input_streams_from_config, compute_electron_ion, compute_electron_electron. cbn [so_ion_pos so_ei_norm so_ei_soft so_2e so_ee_norm so_ee_soft].
  rewrite !displacements_moved. reflexivity.
Qed.

(** Two networks that differ in their input streams only. *)
Definition with_streams (o : stream_options) (m : ferminet) : ferminet :=
  Build_ferminet (fn_split m) o (fn_backflow m) (fn_ndet m) (fn_orbitals m) (fn_soft m) (fn_isotropic m) (fn_det_fn m) (fn_mode m) (fn_full_det m).
Lemma psi_streams o m orbs : psi_from_orbitals (with_streams o m) orbs = psi_from_orbitals m orbs.
Proof. reflexivity. Qed.
Lemma matrices_streams o m x x' s : compute_input_streams o x' = compute_input_streams (fn_streams m) x -> length x' = length x ->
  ferminet_orbital_matrices (with_streams o m) x' s = ferminet_orbital_matrices m x s.
Proof. intros E L. unfold ferminet_orbital_matrices. cbn [fn_streams with_streams]. rewrite E, L. reflexivity. Qed.
Lemma build_ferminet_moved c sp v ions bs th :
  build_ferminet c sp (all_moved v ions) bs th = option_map (with_streams (get_compute_input_streams_from_config (fc_streams c) (all_moved v ions))) (build_ferminet c sp ions bs th).
Proof.
  unfold build_ferminet. cbv zeta. destruct (if fc_use_det_resnet c then _ else _) as [f|]; [|reflexivity]. cbn [bind_opt]. destruct (determinant_fn_mode _) as [md|]; [|reflexivity]. cbn [bind_opt].
  unfold check. destruct (_ && _)%bool; reflexivity.
Qed.
Lemma build_ferminet_streams c sp ions bs th n : build_ferminet c sp ions bs th = Some n -> fn_streams n = get_compute_input_streams_from_config (fc_streams c) ions.
Proof.
  unfold build_ferminet. cbv zeta. destruct (if fc_use_det_resnet c then _ else _) as [f|]; [|discriminate]. cbn [bind_opt]. destruct (determinant_fn_mode _) as [md|]; [|discriminate]. cbn [bind_opt].
  unfold check. destruct (_ && _)%bool; [|discriminate]. intros E. injection E as <-. reflexivity.
Qed.

(** Both fail, or both give wavefunctions related by the translation. *)
Definition same_up_to_moving (v : nat -> R) (o o' : option wavefunction) : Prop :=
  match o, o' with
  | Some w, Some w' => forall x, slog_psi w' (all_moved v x) = slog_psi w x
  | None, None => True
  | _, _ => False
  end.
Lemma moved_bind {A} v (o : option A) f f' : (forall a, o = Some a -> same_up_to_moving v (f a) (f' a)) -> same_up_to_moving v (bind_opt o f) (bind_opt o f').
Proof. intros H. destruct o as [a|]; cbn [bind_opt]; [apply H; reflexivity|exact Logic.I]. Qed.
Lemma moved_check v b f f' : same_up_to_moving v f f' -> same_up_to_moving v (check b f) (check b f').
Proof. intros H. destruct b; cbn [check]; [exact H|exact Logic.I]. Qed.

Lemma antieq_moved k c sp v ions bs th : same_up_to_moving v (option_map WAntieq (build_antieq k c sp ions bs th)) (option_map WAntieq (build_antieq k c sp (all_moved v ions) bs th)).
Proof.
  unfold build_antieq. cbv zeta. unfold check. destruct (_ && _)%bool; [|exact Logic.I].
  destruct (get_sign_covariance_from_config c sp th) as [cov|]; [|exact Logic.I]. cbn [bind_opt]. destruct (match k with Cofactor => _ | PerParticle => _ end) as [bound|]; [|exact Logic.I]. cbn [bind_opt option_map same_up_to_moving].
  intros x. cbn [slog_psi]. unfold antieq_net_call. cbn [an_streams an_backflow an_split an_multiply an_cov]. rewrite streams_moved, all_moved_length. reflexivity.
Qed.
(** The Jastrow factors of the two molecules. *)
Definition same_jastrow (j j' : jastrow) : Prop := forall i1 i2 s r1 r2, jastrow_call j' i1 i2 s r1 r2 = jastrow_call j i1 i2 s r1 r2.
Lemma jastrow_moved c sp v ions q th : match build_jastrow c sp ions q th, build_jastrow c sp (all_moved v ions) q th with
  | Some j, Some j' => same_jastrow j j' | None, None => True | _, _ => False end.
Proof.
  assert (T : two_body_of c (all_moved v ions) q th = two_body_of c ions q th) by (unfold two_body_of; rewrite all_moved_length; reflexivity).
  assert (P : forall ei ee r1 r2, two_body_part (all_moved v ions) q ei ee r1 r2 = two_body_part ions q ei ee r1 r2) by (intros; unfold two_body_part; rewrite scale_moved; reflexivity).
  unfold build_jastrow. rewrite T. destruct (String.eqb _ _); [|destruct (String.eqb _ _); [|destruct (String.eqb _ _); [|destruct (String.eqb _ _); [|exact Logic.I]]]].
  - unfold check. destruct (kernel_init _); [|exact Logic.I]. intros i1 i2 s r1 r2. reflexivity.
  - destruct (two_body_of c ions q th) as [p|]; [|exact Logic.I]. cbn [bind_opt]. intros i1 i2 s r1 r2. cbn [jastrow_call]. apply P.
  - destruct (jastrow_backflow_of c sp th); [|exact Logic.I]. cbn [option_map]. intros i1 i2 s r1 r2. reflexivity.
  - destruct (two_body_of c ions q th) as [p|]; [|exact Logic.I]. cbn [bind_opt]. destruct (jastrow_backflow_of c sp th); [|exact Logic.I]. cbn [bind_opt]. intros i1 i2 s r1 r2. cbn [jastrow_call]. rewrite P. reflexivity.
Qed.
Lemma explicit_moved c sp v ions q bs th : same_up_to_moving v (option_map WExplicit (build_explicit c sp ions q bs th)) (option_map WExplicit (build_explicit c sp (all_moved v ions) q bs th)).
Proof.
  unfold build_explicit. pose proof (jastrow_moved (xc_jastrow c) sp v ions q th) as J.
  destruct (build_jastrow (xc_jastrow c) sp ions q th) as [j|], (build_jastrow (xc_jastrow c) sp (all_moved v ions) q th) as [j'|]; try (exact J); try contradiction. cbn [bind_opt].
  destruct (if String.eqb _ _ then _ else _) as [k|]; [|exact Logic.I]. cbn [bind_opt]. destruct (get_named_activation_fn _) as [act|]; [|exact Logic.I]. cbn [bind_opt].
  unfold check. destruct (_ && _)%bool; [|exact Logic.I]. cbn [option_map same_up_to_moving]. intros x. cbn [slog_psi]. unfold explicit_call. cbn [en_streams en_backflow en_split en_jastrow].
  rewrite streams_moved, all_moved_length. destruct (compute_input_streams _ x) as [[[i1 i2] r1] r2]. destruct (rows_of_input i1) as [s|]; [|reflexivity]. cbn [bind_opt].
  unfold check. destruct (backflow_ok bs (length x)); [|reflexivity]. destruct (split sp _) as [sps|]; [|reflexivity]. cbn [bind_opt].
  unfold antisym_part. cbn [en_antisym]. unfold run_resnet. cbn [en_ndense en_act].
  match goal with |- bind_opt ?a _ = _ => destruct a as [an|]; [|reflexivity] end. cbn [bind_opt]. rewrite J. reflexivity.
Qed.
Lemma ferminet_moved c sp v ions bs th : same_up_to_moving v (option_map WFermiNet (build_ferminet c sp ions bs th)) (option_map WFermiNet (build_ferminet c sp (all_moved v ions) bs th)).
Proof.
  rewrite build_ferminet_moved. destruct (build_ferminet c sp ions bs th) as [n|] eqn:E; [|exact Logic.I]. cbn [option_map same_up_to_moving]. intros x. cbn [slog_psi]. unfold ferminet_call.
  cbn [fn_split with_streams]. rewrite (matrices_streams _ n x); [|rewrite streams_moved; rewrite (build_ferminet_streams _ _ _ _ _ _ E); reflexivity|apply all_moved_length]. reflexivity.
Qed.
Lemma extended_moved h sp v ions bs ib th :
  same_up_to_moving v (do net <- build_ferminet (hc_net h) sp ions bs th; Some (WExtended {| ex_net := net; ex_nhidden := hc_nhidden h; ex_backflow := ib; ex_dense := hidden_dense (hc_use_bias h) th |}))
    (do net <- build_ferminet (hc_net h) sp (all_moved v ions) bs th; Some (WExtended {| ex_net := net; ex_nhidden := hc_nhidden h; ex_backflow := ib; ex_dense := hidden_dense (hc_use_bias h) th |})).
Proof.
  rewrite build_ferminet_moved. destruct (build_ferminet (hc_net h) sp ions bs th) as [n|] eqn:E; [|exact Logic.I]. cbn [option_map bind_opt same_up_to_moving]. intros x. cbn [slog_psi]. unfold extended_call, extended_orbital_matrices.
  cbn [ex_net ex_nhidden fn_streams with_streams fn_backflow fn_split]. rewrite streams_moved, all_moved_length, (build_ferminet_streams _ _ _ _ _ _ E). reflexivity.
Qed.
