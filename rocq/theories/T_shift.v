(** * Translations of the molecule and its electrons: C76 *)
From Coq Require Import String Reals List Bool Arith Lia Lra ZArith.
From Verif Require Import XReal M_slog M_models M_antisym M_construct M_dispatch S_models S_antisym S_construct S_dispatch S_physics S_shift Rsum P_antieq P_split P_models P_construct P_shift P_slog Det T_construct T_dispatch.
Import ListNotations.
Local Open Scope string_scope.

(** Moving the ions and all electrons by the same vector changes neither whether the model is accepted nor the value of
    the wavefunction, for every model type but one and all parameters, numbers of particles and positions (NaN and infinities included). *)
Theorem C76_translation : forall m nelec ions q theta v, ms_type m <> "embedded_particle_ferminet" ->
  match model_of_job m nelec ions q theta, model_of_job m nelec (all_moved v ions) q theta with
  | Some w, Some w' => forall x, slog_psi w' (all_moved v x) = slog_psi w x
  | None, None => True
  | _, _ => False
  end.
Proof.
  intros m nelec ions q th v NE. change (same_up_to_moving v (model_of_job m nelec ions q th) (model_of_job m nelec (all_moved v ions) q th)).
  unfold model_of_job, choose_model_type_in_model_config. cbv zeta.
  destruct (String.eqb_spec (ms_type m) "ferminet").
  { cbn [bind_opt get_model_from_config]. apply moved_bind. intros bs _. apply ferminet_moved. }
  destruct (String.eqb_spec (ms_type m) "embedded_particle_ferminet"); [contradiction|].
  destruct (String.eqb_spec (ms_type m) "extended_orbital_matrix_ferminet").
  { cbn [bind_opt get_model_from_config]. apply moved_bind. intros bs _. apply moved_bind. intros ib _.
    pose proof (extended_moved (ms_extended m) (At (get_spin_split nelec)) v ions bs ib th) as H. revert H.
    unfold check. destruct (_ && _)%bool; [exact (fun H => H)|]. destruct (build_ferminet _ _ ions bs th), (build_ferminet _ _ (all_moved v ions) bs th); exact (fun _ => Logic.I) || exact (fun H => H). }
  destruct (String.eqb_spec (ms_type m) "orbital_cofactor_net").
  { cbn [bind_opt get_model_from_config]. apply moved_bind. intros bs _. apply antieq_moved. }
  destruct (String.eqb_spec (ms_type m) "per_particle_dets_net").
  { cbn [bind_opt get_model_from_config]. apply moved_bind. intros bs _. apply antieq_moved. }
  destruct (String.eqb_spec (ms_type m) "explicit_antisym").
  { cbn [bind_opt get_model_from_config]. apply moved_bind. intros bs _. apply explicit_moved. }
  exact Logic.I.
Qed.
Print Assumptions C76_translation.
(** The same for log |psi|, the only value that training and evaluation use. *)
Theorem C76_log_psi : forall m nelec ions q theta v w w', ms_type m <> "embedded_particle_ferminet" ->
  model_of_job m nelec ions q theta = Some w -> model_of_job m nelec (all_moved v ions) q theta = Some w' -> forall x, log_psi w' (all_moved v x) = log_psi w x.
Proof.
  intros m nelec ions q th v w w' NE E E' x. pose proof (C76_translation m nelec ions q th v NE) as H. rewrite E, E' in H. unfold log_psi. rewrite H. reflexivity.
Qed.
Print Assumptions C76_log_psi.

(** The exception: the embedded-particle model places its hidden particles at coordinates that do not move with the molecule. *)
Definition flat_streams : streams_config := Build_streams_config false true (Fin 0) true (Fin 0).
Definition flat_ferminet : ferminet_config :=
  Build_ferminet_config flat_streams (default_backflow []) 1 "orthogonal" "ones" "ones" (Fin 0) "normal" true true false default_resnet "parallel_even" false.
Definition flat_hidden : hidden_config := Build_hidden_config flat_ferminet [1; 0]%nat false flat_streams (default_backflow []) "orthogonal" "normal" false.
Definition flat_sections : model_sections := Build_model_sections "embedded_particle_ferminet" default_ferminet flat_hidden default_hidden default_antieq default_antieq default_explicit.
(** Orbital 0 is constant, orbital 1 decays with the distance from the ion; the hidden particle sits at the origin. *)
Definition flat_params (p : block_params) (r : resnet_params) : model_params :=
  Build_model_params (fun _ => p) (fun _ => p) (fun _ => Build_orbital_params (fun _ _ => Fin 0) (fun _ => Fin 1) (fun f => if Nat.eqb f 0 then Fin 0 else Fin 1) (fun _ _ _ => Fin 0) (fun _ _ => Fin 1))
    (fun _ => (fun _ _ => Fin 0, fun _ => Fin 0)) r (fun _ _ => r) (fun _ _ => Fin 0) (Fin 0) (fun _ => Fin 0) (Fin 0).
Definition flat_orbital : orbital_split :=
  Build_orbital_split 0 (fun _ _ => Fin 0) (Some (fun _ => Fin 1)) (fun f => if Nat.eqb f 0 then Fin 0 else Fin 1) (fun _ _ _ => Fin 0) (fun _ _ => Fin 1).
Definition flat_options (ion : R) : stream_options := Build_stream_options (Some [[Fin ion]]) false true (Fin 0) true (Fin 0).
Definition flat_net (ion : R) : embedded :=
  Build_embedded (Build_ferminet (At [1%nat]) (flat_options ion) [] 1 (fun _ => flat_orbital) (Fin 0) true None PARALLEL_EVEN false) [1; 0]%nat (flat_options ion) [] (fun _ => Build_mean_dense 0 (fun _ _ => Fin 0) None).
Lemma flat_accepted ion p r : model_of_job flat_sections [1; 1]%nat [[Fin ion]] [Fin 1] (flat_params p r) = Some (WEmbedded (flat_net ion)).
Proof. reflexivity. Qed.
Lemma flat_norm r : norm [Fin r] = Fin (Rabs r).
Proof.
  unfold norm. cbn. destruct (Rlt_dec (r * r + 0) 0) as [H|_]; [pose proof (Rle_0_sqr r); unfold Rsqr in *; lra|]. f_equal. replace (r * r + 0)%R with (Rsqr r) by (unfold Rsqr; ring). apply sqrt_Rsqr_abs.
Qed.
Lemma flat_soft r : softened (Fin 0) (Fin r) = Fin (Rabs r).
Proof.
  unfold softened. cbn. destruct (Rlt_dec (r * r + 0 * 0) 0) as [H|_]; [pose proof (Rle_0_sqr r); unfold Rsqr in *; lra|]. cbn. f_equal. replace (r * r + 0 * 0)%R with (Rsqr r) by (unfold Rsqr; ring). rewrite sqrt_Rsqr_abs. ring.
Qed.
Lemma flat_zero a b : xadd (xmul (xdiv (xadd (Fin a) (Fin 0)) (Fin 1)) (Fin 0)) (xadd (xmul (xdiv (xadd (Fin b) (Fin 0)) (Fin 1)) (Fin 0)) (Fin 0)) = Fin 0.
Proof. cbn. destruct (Req_EM_T 1 0); [lra|]. cbn. f_equal. ring. Qed.
Lemma flat_positions ion a b : embed (flat_net ion) [[Fin a]; [Fin b]] = Some ([[Fin a]; [Fin 0]; [Fin b]], At [2%nat]).
Proof.
  unfold embed. cbn -[norm softened xdiv xsqrt xmul xadd]. change (Pos.to_nat 1) with 1%nat. cbn -[norm softened xdiv xsqrt xmul xadd]. change (xsub (Fin a) (Fin ion)) with (Fin (a + - ion)). rewrite !flat_norm, !flat_soft. rewrite flat_zero. reflexivity.
Qed.
Lemma flat_entry r s : xmul (xadd (xadd (xmul (Fin r) (Fin 0)) (xadd (xmul (softened (Fin 0) (norm [Fin r])) (Fin 0)) (Fin 0))) (Fin 1))
  (xadd (xmul (xexp (xopp (softened (Fin 0) (norm [xmul (Fin r) (Fin s)])))) (Fin 1)) (Fin 0)) = Fin (exp (- Rabs (r * s))).
Proof. cbn [xmul]. rewrite !flat_norm, !flat_soft, !Rabs_Rabsolu. cbn. f_equal. ring. Qed.
Lemma flat_matrices ion a b : ferminet_orbital_matrices (em_net (flat_net ion)) [[Fin a]; [Fin 0]; [Fin b]] (At [2%nat]) =
  Some [[fin2 [[1; exp (- Rabs (a - ion))]; [1; exp (- Rabs ion)]]]; [fin2 [[1]]]]%R.
Proof.
  unfold ferminet_orbital_matrices. cbn -[norm softened xdiv xsqrt xmul xadd xexp]. change (Pos.to_nat 1) with 1%nat. change (Pos.to_nat 2) with 2%nat. cbn -[norm softened xdiv xsqrt xmul xadd xexp].
  assert (D : forall t, xsub (Fin t) (Fin ion) = Fin (t - ion)) by reflexivity. rewrite !D, !flat_entry, !Rmult_0_r, Rabs_R0, Ropp_0, exp_0, !Rmult_1_r.
  replace (0 - ion)%R with (- ion)%R by ring. rewrite Rabs_Ropp. reflexivity.
Qed.
Lemma flat_value ion a b : slog_psi (WEmbedded (flat_net ion)) [[Fin a]; [Fin b]] =
  (let psi := exp (- Rabs ion) - exp (- Rabs (a - ion)) in slog_sum_over_axis [slog_multiply (slog_of psi) (slog_of 1)])%R.
Proof.
  cbv zeta. cbn [slog_psi]. unfold embedded_call. rewrite flat_positions. cbn [bind_opt fst snd]. rewrite flat_matrices. cbn [bind_opt]. unfold psi_from_orbitals. cbv zeta. cbn [fn_full_det fn_det_fn em_net flat_net fn_ndet].
  unfold determinant_slices. cbn [seq map nth]. unfold slogdet_product. cbn [map]. unfold linalg_slogdet. rewrite (det_fin2 2), (det_fin2 1) by (split; [reflexivity|repeat constructor]). rewrite det2, det1.
  cbn [option_map sequence bind_opt reduce fold_left]. rewrite !to_slog_fin. replace (1 * exp (- Rabs ion) - 1 * exp (- Rabs (a - ion)))%R with (exp (- Rabs ion) - exp (- Rabs (a - ion)))%R by ring. reflexivity.
Qed.
Lemma flat_sign psi : psi <> 0%R -> exists l, slog_sum_over_axis [slog_multiply (slog_of psi) (slog_of 1)] = Some (Fin (if Rlt_dec psi 0 then -1 else 1), Fin l).
Proof.
  intros N. rewrite slog_multiply_of, Rmult_1_r. unfold slog_sum_over_axis. change [slog_of psi] with (map slog_of [psi]). rewrite log_linear_exp_of by (exists psi; split; [left; reflexivity|exact N]).
  replace (lsum [psi]) with psi by (cbn; ring). unfold slog_of. destruct (Req_EM_T psi 0); [contradiction|]. eexists. do 3 f_equal.
  destruct (Rlt_dec psi 0); [reflexivity|]. destruct (Rlt_dec 0 psi); [reflexivity|lra].
Qed.
(** Even the sign of its wavefunction changes. *)
Theorem C76_embedded_refuted : exists m nelec ions q theta v w w' x l l', model_of_job m nelec ions q theta = Some w /\ model_of_job m nelec (all_moved v ions) q theta = Some w' /\
  slog_psi w x = Some (Fin 1, Fin l) /\ slog_psi w' (all_moved v x) = Some (Fin (-1), Fin l').
Proof.
  assert (p : block_params) by (constructor; intros; exact NaN). assert (r : resnet_params) by (constructor; intros; try exact NaN; split; intros; exact NaN).
  assert (E2 : (exp (Ropp 2) < exp (Ropp 1) < exp 0)%R) by (split; apply exp_increasing; lra).
  destruct (flat_sign (exp (- Rabs 0) - exp (- Rabs (1 - 0)))) as (l & El).
  { rewrite Rabs_R0, Ropp_0, Rminus_0_r, Rabs_R1. lra. }
  destruct (flat_sign (exp (- Rabs 2) - exp (- Rabs (3 - 2)))) as (l' & El').
  { rewrite !Rabs_pos_eq by lra. replace (3 - 2)%R with 1%R by ring. lra. }
  exists flat_sections, [1; 1]%nat, [[Fin 0]], [Fin 1], (flat_params p r), (fun _ => 2%R), (WEmbedded (flat_net 0)), (WEmbedded (flat_net 2)), [[Fin 1]; [Fin 0]], l, l'.
  split; [apply flat_accepted|]. split; [|split].
  - replace (all_moved (fun _ => 2%R) [[Fin 0]]) with [[Fin 2]] by (cbn; repeat f_equal; ring). apply flat_accepted.
  - rewrite flat_value. cbv zeta. rewrite El. clear El El'. destruct (Rlt_dec _ 0) as [H|_]; [|reflexivity]. exfalso. revert H. rewrite Rabs_R0, Ropp_0, Rminus_0_r, Rabs_R1. lra.
  - replace (all_moved (fun _ => 2%R) [[Fin 1]; [Fin 0]]) with [[Fin 3]; [Fin 2]] by (cbn; repeat f_equal; ring). rewrite flat_value. cbv zeta. rewrite El'. clear El El'. destruct (Rlt_dec _ 0) as [_|H]; [reflexivity|].
    exfalso. revert H. rewrite !Rabs_pos_eq by lra. replace (3 - 2)%R with 1%R by ring. lra.
Qed.
Print Assumptions C76_embedded_refuted.
(** Accepted configurations of all other types: LiH in the default configuration, moved by (1, 2, 3). *)
Example C76_example : forall t theta, In t ["ferminet"; "extended_orbital_matrix_ferminet"; "orbital_cofactor_net"; "per_particle_dets_net"; "explicit_antisym"] ->
  let ions := [[Fin 0; Fin 0; Fin (-1)]; [Fin 0; Fin 0; Fin 1]] in
  all_moved (fun c => INR (S c)) ions = [[Fin 1; Fin 2; Fin 2]; [Fin 1; Fin 2; Fin 4]] /\ ms_type (default_sections t) <> "embedded_particle_ferminet" /\
  exists w w', model_of_job (default_sections t) [2; 2]%nat ions [Fin 1; Fin 3] theta = Some w /\ model_of_job (default_sections t) [2; 2]%nat (all_moved (fun c => INR (S c)) ions) [Fin 1; Fin 3] theta = Some w' /\
    forall x, slog_psi w' (all_moved (fun c => INR (S c)) x) = slog_psi w x.
Proof.
  intros t th Ht ions. assert (C : forall a b l l', a = b -> l = l' -> Fin a :: l = Fin b :: l') by (intros; subst; reflexivity).
  split; [cbn; apply f_equal2; [|apply f_equal2; [|reflexivity]]; repeat (apply C; [lra|]); reflexivity|].
  assert (N : ms_type (default_sections t) <> "embedded_particle_ferminet") by (cbn in Ht |- *; intros ->; intuition discriminate). split; [exact N|].
  destruct (C72_example t th) as ((w & Ew) & _); [cbn in Ht |- *; tauto|]. exists w. pose proof (C76_translation (default_sections t) [2; 2]%nat ions [Fin 1; Fin 3] th (fun c => INR (S c)) N) as H.
  unfold ions in H at 1. rewrite Ew in H. destruct (model_of_job (default_sections t) [2; 2]%nat (all_moved _ ions) _ th) as [w'|]; [|contradiction]. exists w'. split; [exact Ew|]. split; [reflexivity|exact H].
Qed.
