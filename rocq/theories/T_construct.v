(** * Whole wavefunctions: C44, C62, C63, C64 *)
From Coq Require Import Reals List Bool Arith Lia Lra Permutation ZArith.
From Verif Require Det.
From Verif Require Import XReal Rsum S_physics M_slog M_models M_antisym M_construct S_models S_antisym S_construct P_xsum P_slog P_split P_equiv P_equiv2 P_jastrow P_models P_inv P_parity P_flips P_sgn P_antisym P_antieq P_leibniz P_signsym P_construct P_construct2 P_construct3 P_construct4 P_construct5.
Import ListNotations.
Local Open Scope R_scope.

(** ** C44 *)
(** Renumbering the electrons within their spins multiplies the sign by the parity of the
    renumbering and keeps the logarithm of the modulus; an exception is raised for both or none. *)
Theorem C44_antisymmetric : forall m sizes d s x, fits sizes d m -> keeps_spins sizes s -> (0 < list_sum sizes)%nat -> shape2 (list_sum sizes) d x ->
  ferminet_call m (reorder s x) = option_map (times_sign (sign_of (list_sum sizes) s)) (ferminet_call m x).
Proof. intros. apply (ferminet_antisymmetric m sizes d); assumption. Qed.
Print Assumptions C44_antisymmetric.
Theorem C44_exchange : forall m sizes d x i j p, fits sizes d m -> shape2 (list_sum sizes) d x ->
  (i < list_sum sizes)%nat -> (j < list_sum sizes)%nat -> i <> j -> spin_of sizes i = spin_of sizes j -> ferminet_call m x = Some p ->
  ferminet_call m (reorder (exchange i j) x) = Some (xmul (Fin (-1)) (fst p), snd p).
Proof.
  intros m sizes d x i j p F Sx Hi Hj N Sp E. rewrite (C44_antisymmetric m sizes d) by (assumption || lia || (apply exchange_keeps; assumption)).
  rewrite E, exchange_sign by assumption. reflexivity.
Qed.
Print Assumptions C44_exchange.
(** When the wavefunction has a value at all. *)
Theorem C44_defined : forall m sizes d x, fits sizes d m -> shape2 (list_sum sizes) d x -> (0 < fn_ndet m)%nat ->
  (so_ion_pos (fn_streams m) = None \/ so_ei_norm (fn_streams m) = true) -> (fn_full_det m = true \/ fn_split m <> At []) ->
  (forall fn, fn_det_fn m = Some fn -> fn_mode m = PAIRWISE_EVEN -> fn_full_det m = false /\ length sizes = 2%nat) ->
  exists p, ferminet_call m x = Some p.
Proof. exact ferminet_total. Qed.
Print Assumptions C44_defined.
(** The pairwise mode needs exactly two spins and no full determinant: it raises otherwise. *)
Theorem C44_pairwise_raises : forall m fn sizes d x, fits sizes d m -> (0 < list_sum sizes)%nat -> shape2 (list_sum sizes) d x ->
  fn_det_fn m = Some fn -> fn_mode m = PAIRWISE_EVEN -> (fn_full_det m = true \/ length sizes <> 2%nat) -> ferminet_call m x = None.
Proof.
  intros m fn sizes d x (D & B & Fi) N (L & Fx) Ed Em H. unfold ferminet_call.
  destruct (ferminet_orbital_matrices m x (fn_split m)) as [O|] eqn:EO; [|reflexivity]. cbn [bind_opt]. unfold psi_from_orbitals. cbv zeta. rewrite Ed, Em.
  set (P := if fn_full_det m then _ else _). assert (LP : length P <> 2%nat).
  { unfold P. destruct (fn_full_det m); [cbn; lia|]. destruct H as [H|H]; [discriminate|].
    assert (K : keeps_spins sizes (fun i => i)) by (split; [unfold renumbering; rewrite map_id; apply Permutation_refl|reflexivity]).
    pose proof (matrices_orel m (fn_split m) sizes d _ x D B Fi K N (conj L Fx)) as Q. rewrite EO in Q.
    destruct (ferminet_orbital_matrices m (reorder (fun i => i) x) (fn_split m)) as [O'|]; [|contradiction]. cbn [orel] in Q.
    rewrite (oflips_len _ _ _ _ Q). unfold block_signs. rewrite map_length, seq_length. exact H. }
  clearbody P. destruct (sequence (map (fun o => sequence (map linalg_det o)) P)) as [w|] eqn:Ew; [|reflexivity]. cbn [bind_opt]. apply sequence_length in Ew. rewrite map_length in Ew.
  unfold psi_pairwise_even. destruct w as [|a [|b [|]]]; cbn in Ew; try reflexivity. exfalso. apply LP. lia.
Qed.
Print Assumptions C44_pairwise_raises.

(** "Hence it vanishes when two electrons of the same spin coincide" fails without a determinant
    function: the value is not (sign 0, log -inf) but NaN. *)
Theorem C44_vanishes_without_determinant_fn_refuted : forall m sizes d x i j p, fits sizes d m -> shape2 (list_sum sizes) d x -> coincide sizes x i j ->
  fn_det_fn m = None -> ferminet_call m x = Some p -> p = (NaN, NaN).
Proof.
  intros m sizes d x i j p (D & B & Fi) Sx C Ed. unfold ferminet_call. destruct (ferminet_orbital_matrices m x (fn_split m)) as [O|] eqn:EO; [|discriminate]. cbn [bind_opt].
  destruct (coincide_flips m (fn_split m) sizes d x i j O D B Fi Sx C EO) as (Q & Es). apply (psi_nan m _ O p Q Es Ed).
Qed.
Print Assumptions C44_vanishes_without_determinant_fn_refuted.
(** With one it is zero or NaN; it is zero if the orbitals are finite there and the determinant
    function maps finite determinants to finite numbers. *)
Theorem C44_vanishes_with_determinant_fn : forall m fn sizes d x i j p, fits sizes d m -> shape2 (list_sum sizes) d x -> coincide sizes x i j ->
  fn_det_fn m = Some fn -> ferminet_call m x = Some p ->
  (p = (Fin 0, MInf) \/ p = (NaN, NaN)) /\
  ((forall dout dets, Forall (Forall (fun a => isfin a = true)) dets -> Forall (fun a => isfin a = true) (fn dout dets)) ->
   (forall orbitals, ferminet_orbital_matrices m x (fn_split m) = Some orbitals -> Forall (Forall all_finite) orbitals) -> p = (Fin 0, MInf)).
Proof.
  intros m fn sizes d x i j p (D & B & Fi) Sx C Ed. unfold ferminet_call. destruct (ferminet_orbital_matrices m x (fn_split m)) as [O|] eqn:EO; [|discriminate]. cbn [bind_opt]. intros Ep.
  destruct (coincide_flips m (fn_split m) sizes d x i j O D B Fi Sx C EO) as (Q & Es). destruct (psi_zero_or_nan m fn _ O p Q Es Ed Ep) as (v & Ev & H).
  split; [destruct H as [(_ & H)|(_ & H)]; [left|right]; exact H|]. intros Ff HO. pose proof (psi_value_finite m fn O v Ff (HO O eq_refl) Ev) as Fv.
  destruct H as [(_ & H)|(-> & _)]; [exact H|discriminate].
Qed.
Print Assumptions C44_vanishes_with_determinant_fn.
(** The determinant function of the library is of that kind for finite parameters. *)
Theorem C44_resnet_determinant_fn_finite : forall ndense act inner final,
  (forall a, isfin a = true -> isfin (act a) = true) ->
  Forall (fun layer : (nat -> nat -> xr) * option (nat -> xr) => (forall i f, isfin (fst layer i f) = true) /\ (forall b f, snd layer = Some b -> isfin (b f) = true)) inner ->
  (forall i f, isfin (final i f) = true) ->
  forall dout dets, Forall (Forall (fun a => isfin a = true)) dets -> Forall (fun a => isfin a = true) (resnet_determinant_fn ndense act inner final dout dets).
Proof.
  intros nd act inner final Ha Hi Hf dout dets Hd. unfold resnet_determinant_fn, simple_resnet. apply dense_finite; [exact Hf|discriminate|].
  assert (Hx : fins (concat dets)) by (apply Forall_concat; exact Hd). revert Hx. generalize (concat dets) as x. clear -Ha Hi.
  induction Hi as [|l inner (Hk & Hb) _ IH]; intros x Hx; cbn [fold_left]; [exact Hx|]. apply IH. unfold resnet_layer. cbv zeta.
  assert (Hy : fins (map act (dense nd (fst l) (snd l) x))) by (apply Forall_map; eapply Forall_impl; [exact Ha|]; apply dense_finite; assumption).
  destruct (Nat.eqb _ _); [|exact Hy]. apply zipw_add_finite; assumption.
Qed.
Print Assumptions C44_resnet_determinant_fn_finite.
(** A FermiNet for three electrons (two up, one down) on a line: psi = (x1 - x2) y. *)
Definition line_streams : stream_options := Build_stream_options None false false (Fin 0) false (Fin 0).
Definition line_orbitals : orbital_split :=
  Build_orbital_split 0 (fun _ f => if Nat.eqb f 0 then Fin 1 else Fin 0) (Some (fun f => if Nat.eqb f 0 then Fin 0 else Fin 1)) (fun _ => Fin 1) (fun _ _ _ => Fin 1) (fun _ _ => Fin 1).
Definition line_net (fn : option (nat -> list vec -> vec)) (mode : det_mode) (full : bool) : ferminet :=
  Build_ferminet (At [2%nat]) line_streams [] 1 (fun _ => line_orbitals) (Fin 0) true fn mode full.
Lemma det2 a b c e : Det.det 2 (entry [[a; b]; [c; e]]) = a * e - c * b.
Proof.
  rewrite det_expand. cbn [Rsum]. assert (E : forall i, Det.det 1 (minor (entry [[a; b]; [c; e]]) i) = entry [[a; b]; [c; e]] (skip i 0) 1).
  { intros i. rewrite det_expand. cbn [Rsum]. rewrite det_0. unfold minor. cbn. ring. }
  rewrite !E. unfold entry, skip. cbn. ring.
Qed.
Lemma det1 a : Det.det 1 (entry [[a]]) = a.
Proof. rewrite det_expand. cbn [Rsum]. rewrite det_0. unfold entry. cbn. ring. Qed.
Lemma line_fits fn mode full : fits [2; 1]%nat 1 (line_net fn mode full).
Proof. split; [split; [discriminate|right; reflexivity]|]. split; [constructor|exact I]. Qed.
Example C44_example :
  fits [2; 1]%nat 1 (line_net None SIGN_COVARIANCE false) /\ keeps_spins [2; 1]%nat (exchange 0 1) /\
  ferminet_call (line_net None SIGN_COVARIANCE false) [[Fin 3]; [Fin 1]; [Fin 2]] = Some (Fin 1, Fin (ln 4)) /\
  ferminet_call (line_net None SIGN_COVARIANCE false) [[Fin 1]; [Fin 3]; [Fin 2]] = Some (Fin (-1), Fin (ln 4)).
Proof.
  split; [apply line_fits|]. split; [apply exchange_keeps; cbn; lia|].
  assert (M : forall a b c, ferminet_orbital_matrices (line_net None SIGN_COVARIANCE false) [[Fin a]; [Fin b]; [Fin c]] (At [2%nat]) = Some [[fin2 [[a; 1]; [b; 1]]]; [fin2 [[c]]]]).
  { intros a b c. unfold ferminet_orbital_matrices. cbn. change (Pos.to_nat 1) with 1%nat. change (Pos.to_nat 2) with 2%nat. unfold fin2. cbn. repeat (apply f_equal2 || apply f_equal || reflexivity || ring). }
  assert (V : forall a b c, (a - b) * c <> 0 -> ferminet_call (line_net None SIGN_COVARIANCE false) [[Fin a]; [Fin b]; [Fin c]] = Some (slog_of ((a - b) * c))).
  { intros a b c N. unfold ferminet_call. cbn [fn_split line_net]. rewrite M. cbn [bind_opt]. unfold psi_from_orbitals. cbv zeta. cbn [fn_full_det fn_det_fn line_net fn_ndet].
    unfold determinant_slices. cbn [seq map nth]. unfold slogdet_product. cbn [map]. unfold linalg_slogdet.
    rewrite (det_fin2 2), (det_fin2 1) by (split; [reflexivity|repeat constructor]). rewrite det2, det1. cbn [option_map sequence bind_opt reduce fold_left]. rewrite !to_slog_fin, slog_multiply_of.
    unfold slog_sum_over_axis. replace [slog_of ((a * 1 - b * 1) * c)] with (map slog_of [(a - b) * c]) by (cbn; repeat f_equal; ring). rewrite log_linear_exp_of.
    - cbn. f_equal. f_equal. ring.
    - exists ((a - b) * c). split; [left; reflexivity|exact N]. }
  split.
  - rewrite V by lra. f_equal. unfold slog_of. destruct (Rlt_dec _ 0); [lra|]. destruct (Rlt_dec 0 _); [|lra]. destruct (Req_EM_T _ 0); [lra|]. do 3 f_equal. rewrite Rabs_pos_eq; lra.
  - rewrite V by lra. f_equal. unfold slog_of. destruct (Rlt_dec _ 0); [|lra]. destruct (Req_EM_T _ 0); [lra|]. apply f_equal2; [f_equal; lra|]. do 2 f_equal. rewrite Rabs_left; lra.
Qed.
(** A coincidence with a value, and one in each other mode. *)
Example C44_coincidence_example : coincide [2; 1]%nat [[Fin 1]; [Fin 1]; [Fin 2]] 0 1 /\
  (exists p, ferminet_call (line_net None SIGN_COVARIANCE false) [[Fin 1]; [Fin 1]; [Fin 2]] = Some p) /\
  (forall full, exists p, ferminet_call (line_net (Some (fun dout l => repeat (xsum (concat l)) dout)) PARALLEL_EVEN full) [[Fin 1]; [Fin 1]; [Fin 2]] = Some p) /\
  (exists p, ferminet_call (line_net (Some (fun dout l => repeat (xsum (concat l)) dout)) PAIRWISE_EVEN false) [[Fin 1]; [Fin 1]; [Fin 2]] = Some p).
Proof.
  assert (Sx : shape2 (list_sum [2; 1]%nat) 1 [[Fin 1]; [Fin 1]; [Fin 2]]) by (split; [reflexivity|repeat constructor]).
  split; [repeat split; cbn; lia|]. split; [|split; [intros full|]].
  - apply (C44_defined _ [2; 1]%nat 1); [apply line_fits|exact Sx|cbn; lia|left; reflexivity|right; discriminate|intros fn E; discriminate E].
  - apply (C44_defined _ [2; 1]%nat 1); [apply line_fits|exact Sx|cbn; lia|left; reflexivity|right; discriminate|intros fn _ E; discriminate E].
  - apply (C44_defined _ [2; 1]%nat 1); [apply line_fits|exact Sx|cbn; lia|left; reflexivity|right; discriminate|intros fn _ _; split; reflexivity].
Qed.

(** ** C62 *)
(** Hidden particles or orbital rows computed from the electrons do not spoil antisymmetry: the
    particle-embedded FermiNet (hidden particles appended to each spin; the network after the
    embedding is built for the enlarged spins) and the FermiNet with extended orbital matrices. *)
Theorem C62_embedded_antisymmetric : forall e sizes d s x, let all_sizes := zipw Nat.add sizes (em_nhidden e) in
  describes (fn_split (em_net e)) sizes -> built_for sizes (em_backflow e) -> ions_fit d (em_streams e) ->
  built_for all_sizes (fn_backflow (em_net e)) -> ions_fit d (fn_streams (em_net e)) ->
  keeps_spins sizes s -> (0 < list_sum sizes)%nat -> shape2 (list_sum sizes) d x ->
  embedded_call e (reorder s x) = option_map (times_sign (sign_of (list_sum sizes) s)) (embedded_call e x).
Proof. intros. apply (embedded_antisymmetric e sizes d); assumption. Qed.
Print Assumptions C62_embedded_antisymmetric.
Theorem C62_extended_antisymmetric : forall e sizes d s x, fits sizes d (ex_net e) -> (forall bs, ex_backflow e = Some bs -> built_for sizes bs) ->
  keeps_spins sizes s -> (0 < list_sum sizes)%nat -> shape2 (list_sum sizes) d x ->
  extended_call e (reorder s x) = option_map (times_sign (sign_of (list_sum sizes) s)) (extended_call e x).
Proof.
  intros e sizes d s x F B K N Sx. apply (extended_antisymmetric e sizes d); try assumption. unfold extended_backflow_ok. destruct (ex_backflow e); [apply B; reflexivity|exact I].
Qed.
Print Assumptions C62_extended_antisymmetric.
(** Coincidence: NaN without a determinant function, zero or NaN with one. *)
Theorem C62_embedded_coincidence : forall e sizes d x i j p, let all_sizes := zipw Nat.add sizes (em_nhidden e) in
  describes (fn_split (em_net e)) sizes -> built_for sizes (em_backflow e) -> ions_fit d (em_streams e) ->
  built_for all_sizes (fn_backflow (em_net e)) -> ions_fit d (fn_streams (em_net e)) ->
  shape2 (list_sum sizes) d x -> coincide sizes x i j -> embedded_call e x = Some p ->
  (p = (NaN, NaN) \/ (fn_det_fn (em_net e) <> None /\ p = (Fin 0, MInf))).
Proof. intros. eapply embedded_coincide; eassumption. Qed.
Print Assumptions C62_embedded_coincidence.
Theorem C62_extended_coincidence : forall e sizes d x i j p, fits sizes d (ex_net e) -> (forall bs, ex_backflow e = Some bs -> built_for sizes bs) ->
  shape2 (list_sum sizes) d x -> coincide sizes x i j -> extended_call e x = Some p ->
  (p = (NaN, NaN) \/ (fn_det_fn (ex_net e) <> None /\ p = (Fin 0, MInf))).
Proof.
  intros e sizes d x i j p F B Sx C. apply (extended_coincide e sizes d x i j p F); try assumption. unfold extended_backflow_ok. destruct (ex_backflow e); [apply B; reflexivity|exact I].
Qed.
Print Assumptions C62_extended_coincidence.
Definition line_dense : mean_dense := Build_mean_dense 0 (fun _ _ => Fin 1) None.
Definition line_embedded : embedded := Build_embedded (line_net None SIGN_COVARIANCE false) [0; 1]%nat line_streams [] (fun _ => line_dense).
Definition line_extended : extended := Build_extended (line_net None SIGN_COVARIANCE false) [0; 1]%nat None (fun _ => line_dense).
Example C62_example :
  let net := line_net None SIGN_COVARIANCE false in
  describes (fn_split net) [2; 1]%nat /\ fits [2; 1]%nat 1 net /\ built_for [2; 2]%nat (fn_backflow net) /\
  (exists p, embedded_call line_embedded [[Fin 3]; [Fin 1]; [Fin 2]] = Some p) /\
  (exists p, extended_call line_extended [[Fin 3]; [Fin 1]; [Fin 2]] = Some p).
Proof.
  cbv zeta. split; [apply line_fits|]. split; [apply line_fits|]. split; [constructor|]. split.
  - unfold embedded_call. destruct (embed line_embedded [[Fin 3]; [Fin 1]; [Fin 2]]) as [q|] eqn:E; [|discriminate E]. cbn in E. apply some_inj in E. subst q. cbn [bind_opt fst snd].
    eexists. unfold ferminet_orbital_matrices. cbn. change (Pos.to_nat 1) with 1%nat. change (Pos.to_nat 2) with 2%nat. cbn. reflexivity.
  - unfold extended_call. eexists. unfold extended_orbital_matrices. cbn. change (Pos.to_nat 1) with 1%nat. change (Pos.to_nat 2) with 2%nat. cbn. reflexivity.
Qed.

(** ** C63 *)
(** Networks on antiequivariant layers (orbital cofactors or per-particle determinants) with a
    sign-covariant readout: antisymmetric when the readout sums products without weights or is the
    odd part of a backflow. *)
Theorem C63_antisymmetric : forall a sizes d s x, describes (an_split a) sizes -> built_for sizes (an_backflow a) -> ions_fit d (an_streams a) ->
  readout_built_for sizes (an_cov a) -> keeps_spins sizes s -> (0 < list_sum sizes)%nat -> shape2 (list_sum sizes) d x ->
  antieq_net_call a (reorder s x) = option_map (times_sign (sign_of (list_sum sizes) s)) (antieq_net_call a x).
Proof. intros. apply (antieq_antisymmetric a sizes d); assumption. Qed.
Print Assumptions C63_antisymmetric.
Theorem C63_coincidence : forall a sizes d x i j p, describes (an_split a) sizes -> built_for sizes (an_backflow a) -> ions_fit d (an_streams a) ->
  readout_built_for sizes (an_cov a) -> shape2 (list_sum sizes) d x -> coincide sizes x i j -> antieq_net_call a x = Some p -> p = (Fin 0, MInf) \/ p = (NaN, NaN).
Proof. intros. eapply antieq_coincide; eassumption. Qed.
Print Assumptions C63_coincidence.
(** psi = sum over pairs of w (cofactor features): kernel w. *)
Definition line_antieq (cov : sign_covariance) : antieq_net :=
  Build_antieq_net (At [2%nat]) line_streams [] Cofactor (fun _ => line_orbitals) (Fin 0) true cov false.
Lemma line_features a b c : antieq_layer (line_antieq (Products None)) [[Fin a]; [Fin b]; [Fin c]] None = Some [[Fin a; Fin (- b)]; [Fin c]].
Proof.
  unfold antieq_layer. cbn [bind_opt an_split line_antieq]. change (bind_opt (get_nelec_per_split (At [2%nat]) (length [[Fin a]; [Fin b]; [Fin c]])) to_nats) with (Some [2; 1]%nat). cbn [bind_opt].
  unfold check, splittable. cbn [an_kind line_antieq]. unfold orbital_cofactor_layer.
  match goal with |- context [ferminet_orbitals ?l ?x ?r] => assert (E : ferminet_orbitals l x r = [fin2 [[a; 1]; [b; 1]]; fin2 [[c]]]) end.
  { cbn. change (Pos.to_nat 1) with 1%nat. change (Pos.to_nat 2) with 2%nat. unfold fin2. cbn. repeat (apply f_equal2 || apply f_equal || reflexivity || ring). }
  rewrite E. cbn [map sequence]. rewrite (cofactor_fin2 1), (cofactor_fin2 0) by (split; [reflexivity|repeat constructor]). unfold cofactor_terms. cbn [seq map].
  assert (D1 : forall i, Det.det 1 (minor (entry [[a; 1]; [b; 1]]) i) = entry [[a; 1]; [b; 1]] (skip i 0) 1).
  { intros i. rewrite det_expand. cbn [Rsum]. rewrite det_0. unfold minor. cbn. ring. }
  rewrite !D1, det_0. unfold entry, skip. cbn. repeat (apply f_equal2 || apply f_equal || reflexivity || ring).
Qed.
(** With trained per-pair weights the readout is not antisymmetric although it is sign covariant
    (C47): psi = x1 y here, and x2 y after the exchange. *)
Theorem C63_weighted_products_refuted : exists a w sizes d s x,
  an_cov a = Products (Some w) /\ describes (an_split a) sizes /\ built_for sizes (an_backflow a) /\ ions_fit d (an_streams a) /\ keeps_spins sizes s /\
  (0 < list_sum sizes)%nat /\ shape2 (list_sum sizes) d x /\
  antieq_net_call a (reorder s x) <> option_map (times_sign (sign_of (list_sum sizes) s)) (antieq_net_call a x).
Proof.
  set (w := fun i _ : nat => if Nat.eqb i 0 then Fin 1 else Fin 0). exists (line_antieq (Products (Some w))), w, [2; 1]%nat, 1%nat, (exchange 0 1), [[Fin 3]; [Fin 1]; [Fin 2]].
  split; [reflexivity|]. split; [split; [discriminate|right; reflexivity]|]. split; [constructor|]. split; [exact I|]. split; [apply exchange_keeps; cbn; lia|].
  split; [cbn; lia|]. split; [split; [reflexivity|repeat constructor]|].
  assert (V : forall a b c, antieq_net_call (line_antieq (Products (Some w))) [[Fin a]; [Fin b]; [Fin c]] = Some (array_to_slog (Fin (a * c)))).
  { intros a b c. unfold antieq_net_call. cbn [compute_input_streams an_streams line_antieq compute_electron_ion so_ion_pos line_streams so_2e rows_of_input bind_opt an_backflow backflow fold_left length an_multiply an_cov].
    unfold check. cbn [backflow_ok forallb]. cbv zeta. 
    match goal with |- context [antieq_layer ?n ?y ?r] => change (antieq_layer n y r) with (antieq_layer (line_antieq (Products None)) [[Fin a]; [Fin b]; [Fin c]] None) end.
    rewrite line_features. cbn. do 2 f_equal. unfold w. cbn. f_equal. ring. }
  change (reorder (exchange 0 1) [[Fin 3]; [Fin 1]; [Fin 2]]) with [[Fin 1]; [Fin 3]; [Fin 2]]. rewrite !V. rewrite exchange_sign by (cbn; lia). cbn [option_map]. rewrite !to_slog_fin. unfold times_sign, slog_of. cbn [fst snd].
  intros E. apply some_inj in E. apply (f_equal fst) in E. cbn [fst] in E. destruct (Rlt_dec (1 * 2) 0); [lra|]. destruct (Rlt_dec 0 (1 * 2)); [|lra]. destruct (Rlt_dec (3 * 2) 0); [lra|]. destruct (Rlt_dec 0 (3 * 2)); [|lra].
  cbn in E. injection E as E. lra.
Qed.
Print Assumptions C63_weighted_products_refuted.
(** Without weights: psi = (x1 - x2) y. *)
Example C63_example : readout_built_for [2; 1]%nat (an_cov (line_antieq (Products None))) /\
  antieq_net_call (line_antieq (Products None)) [[Fin 3]; [Fin 1]; [Fin 2]] = Some (array_to_slog (Fin 4)) /\
  antieq_net_call (line_antieq (Products None)) [[Fin 1]; [Fin 3]; [Fin 2]] = Some (array_to_slog (Fin (-4))).
Proof.
  split; [exact I|].
  assert (V : forall a b c, antieq_net_call (line_antieq (Products None)) [[Fin a]; [Fin b]; [Fin c]] = Some (array_to_slog (Fin ((a - b) * c)))).
  { intros a b c. unfold antieq_net_call. cbn [compute_input_streams an_streams line_antieq compute_electron_ion so_ion_pos line_streams so_2e rows_of_input bind_opt an_backflow backflow fold_left length an_multiply an_cov].
    unfold check. cbn [backflow_ok forallb]. cbv zeta. 
    match goal with |- context [antieq_layer ?n ?y ?r] => change (antieq_layer n y r) with (antieq_layer (line_antieq (Products None)) [[Fin a]; [Fin b]; [Fin c]] None) end.
    rewrite line_features. cbn. do 3 f_equal. ring. }
  rewrite !V. split; do 3 f_equal; ring.
Qed.

(** ** C64 *)
(** Explicitly antisymmetrised networks (factorized over spins, or generic), times a one-body,
    two-body, backflow or combined Jastrow factor: antisymmetric, the Jastrow factor being invariant
    for all positions, infinite or NaN coordinates included. *)
Theorem C64_antisymmetric : forall e sizes d s x, describes (en_split e) sizes -> built_for sizes (en_backflow e) -> ions_fit d (en_streams e) ->
  jastrow_built_for sizes (en_jastrow e) -> keeps_spins sizes s -> (0 < list_sum sizes)%nat -> shape2 (list_sum sizes) d x ->
  explicit_call e (reorder s x) = option_map (times_sign (sign_of (list_sum sizes) s)) (explicit_call e x).
Proof. intros. apply (explicit_antisymmetric e sizes d); assumption. Qed.
Print Assumptions C64_antisymmetric.
(** Coincidence: the factorized form gives NaN, the generic one a zero sign (times the Jastrow
    factor) or NaN. *)
Theorem C64_coincidence : forall e sizes d x i j p, describes (en_split e) sizes -> built_for sizes (en_backflow e) -> ions_fit d (en_streams e) ->
  jastrow_built_for sizes (en_jastrow e) -> shape2 (list_sum sizes) d x -> coincide sizes x i j -> explicit_call e x = Some p ->
  match en_antisym e with
  | Factorized _ _ => p = (NaN, NaN)
  | Generic _ => p = (NaN, NaN) \/ exists J, p = (Fin 0, xadd MInf J)
  end.
Proof. intros. eapply explicit_coincide; eassumption. Qed.
Print Assumptions C64_coincidence.
Definition line_resnet : resnet := Build_resnet [] (fun i _ => Fin (INR (i * i))).
Definition line_explicit (k : antisym_kind) (j : jastrow) : explicit_net := Build_explicit_net (At [2%nat]) (Build_stream_options (Some [[Fin 0]]) true true (Fin 0) true (Fin 0)) [] j 1 (fun v => v) k.
Example C64_example : forall k j, k = Generic line_resnet \/ k = Factorized 1 (fun _ _ => line_resnet) ->
  j = OneBodyDecay (Fin 1) \/ j = TwoBodyDecay [[Fin 0]] [Fin 3] [Fin 2] (Fin 1) \/ j = BackflowBased None \/ j = AddedJastrow [[Fin 0]] [Fin 3] [Fin 2] (Fin 1) None ->
  jastrow_built_for [2; 1]%nat j /\ exists p, explicit_call (line_explicit k j) [[Fin 3]; [Fin 1]; [Fin 2]] = Some p.
Proof.
  intros k j Hk Hj. split; [destruct Hj as [->|[->|[->| ->]]]; exact I|]. 
  destruct Hk as [->| ->]; destruct Hj as [->|[->|[->| ->]]]; eexists; unfold explicit_call; cbn [compute_input_streams]; reflexivity.
Qed.
