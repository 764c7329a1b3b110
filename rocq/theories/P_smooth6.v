(** * Proofs: the extended FermiNet and the antiequivariant models are smooth *)
From Coquelicot Require Import Coquelicot.
From Coq Require Import String Reals List Bool Arith Lia Lra ZArith.
From Verif Require Import XReal S_physics M_slog M_models M_antisym M_construct M_dispatch S_models S_antisym S_construct S_finite P_xsum P_slog P_split P_equiv P_equiv2 P_jastrow P_models P_inv P_parity P_flips P_sgn P_antisym P_antieq P_leibniz P_signsym P_construct P_construct2 P_construct3 P_construct4 P_construct5 P_dispatch P_total P_finite P_finite2 P_smooth P_smooth2 P_smooth3 P_smooth4 P_smooth5 Rsum Det S_smooth.
Import ListNotations.
Local Open Scope R_scope.

(** What all models share: streams and backflow along a displacement. *)
Definition away (o : stream_options) (x : arr2) : Prop := (forall ions, so_ion_pos o = Some ions -> clear_of ions x) /\ apart x.
Lemma smooth_none {A} P (X : R -> option A) G : famO P X -> (forall f, P f -> (forall t, X t = Some (f t)) -> smooth_value (fun t => G t (f t))) -> smooth_value (fun t => bind_opt (X t) (G t)).
Proof.
  intros [N|(f & Hf & E)] H; [apply (D2_ext (fun _ => 0)); [intros t; rewrite N; reflexivity|apply D2_const]|]. apply (D2_ext (fun t => match G t (f t) with Some p => number_of p | None => 0 end)); [intros t; rewrite E; reflexivity|].
  exact (H f Hf E).
Qed.
Lemma smooth_check b X : (b = true -> smooth_value X) -> smooth_value (fun t => check b (X t)).
Proof. destruct b; intros H; [exact (H eq_refl)|exact (D2_const 0)]. Qed.
Lemma smooth_ext X Y : (forall t, X t = Y t) -> smooth_value X -> smooth_value Y.
Proof. intros E. apply D2_ext. intros t. rewrite E. reflexivity. Qed.
Lemma smooth_raises : smooth_value (fun _ => None). Proof. exact (D2_const 0). Qed.
Lemma ferminet_smooth m sizes d X : fits sizes d m -> positive sizes -> net_fin m -> Forall block_act (fn_backflow m) -> (forall fn, fn_det_fn m = Some fn -> smooth_det_fn fn) -> streams_fin (fn_streams m) ->
  (fn_isotropic m = true \/ fn_soft m <> Fin 0) -> away (fn_streams m) (X 0) -> shape2 (list_sum sizes) d (X 0) -> fam2 X -> smooth_value (fun t => ferminet_call m (X t)).
Proof.
  intros (D & B & Fi) Ps Nf Ba Hd Sf Ok (Ci & Ap) Sx HX. unfold ferminet_call. apply (smooth_none (famL (famL fam2)) (fun t => ferminet_orbital_matrices m (X t) (fn_split m)) (fun _ => psi_from_orbitals m)); [apply (fam_matrices m (fn_split m) sizes d); assumption|].
  intros O HO _. apply psi_smooth; assumption.
Qed.

(** ** Extended FermiNet *)
Lemma fam_tensor sp bf dp shapes sizes X Y : describes sp sizes -> positive sizes -> (forall i, dense_fin (dp i)) -> length (match bf with Some b => backflow b (X 0) (Y 0) | None => X 0 end) = list_sum sizes ->
  fam2 (fun t => match bf with Some b => backflow b (X t) (Y t) | None => X t end) -> famL fam2 (fun t => invariant_tensor sp bf (invariance_params dp shapes) (X t) (Y t)).
Proof.
  intros D Ps Hd L H. unfold invariant_tensor. cbv zeta. set (Z := fun t => match bf with Some b => backflow b (X t) (Y t) | None => X t end) in *. change (length (Z 0) = list_sum sizes) in L.
  apply (fam_zipw_l fam1 fam2 (fun _ v p => reshape2 (fst (fst p)) (snd (fst p)) v) (fun t => split_mean_dense sp (map snd (invariance_params dp shapes)) (Z t))).
  - intros v p Hv _. unfold reshape2. apply (fam_index fam1 (fun t i => map (fun j => nth (i * snd (fst p) + j) (v t) (Fin 0)) (seq 0 (snd (fst p))))). intros i _.
    apply (fam_index sm (fun t j => nth (i * snd (fst p) + j) (v t) (Fin 0))). intros j _. apply sm_nth. exact Hv.
  - unfold split_mean_dense. rewrite invariance_params_snd. apply (fam_zipw_l fam1 fam1 (fun _ m p => if Nat.eqb (md_features p) 0 then [] else dense (md_features p) (md_kernel p) (md_bias p) m) (fun t => split_mean sp (Z t))).
    + intros v p Hv Hp. destruct (Nat.eqb _ 0); [apply fam_nil|]. assert (F : dense_fin p).
      { assert (G : Forall dense_fin (mapi (fun i sh => set_features (fst sh * snd sh) (dp i)) shapes)) by (apply mapi_forall; intros i sh _; exact (Hd i)). rewrite Forall_forall in G. apply G. exact Hp. }
      destruct F as (Hk & Hb). apply fam_dense; [exact Hk|intros c f E; apply (Hb c f E)|exact Hv].
    + unfold split_mean. apply (fam_ext _ (fun t => map (vmean (width (Z 0))) (pieces sp (Z t)))); [intros t; rewrite (fam_width Z H t); reflexivity|].
      apply (fam_map (full fam1) fam1 (fun _ => vmean (width (Z 0)))); [intros f Hf; apply fam_mean; exact Hf|apply (fam_pieces_full fam1 sp sizes); assumption].
Qed.
Lemma extended_smooth e sizes d X : fits sizes d (ex_net e) -> extended_backflow_ok sizes e -> positive sizes -> net_fin (ex_net e) -> Forall block_act (fn_backflow (ex_net e)) -> (forall fn, fn_det_fn (ex_net e) = Some fn -> smooth_det_fn fn) -> streams_fin (fn_streams (ex_net e)) ->
  (fn_isotropic (ex_net e) = true \/ fn_soft (ex_net e) <> Fin 0) -> (forall bs, ex_backflow e = Some bs -> Forall block_fin bs /\ Forall block_act bs) -> (forall i, dense_fin (ex_dense e i)) ->
  away (fn_streams (ex_net e)) (X 0) -> shape2 (list_sum sizes) d (X 0) -> fam2 X -> smooth_value (fun t => extended_call e (X t)).
Proof.
  intros (D & B & Fi) Be Ps Nf Ba Hdf (I1 & I2 & I3) Ok Bf Hd (Ci & Ap) Sx HX. set (m := ex_net e) in *. destruct (streams_smooth (fn_streams m) X) as (H1 & H2 & H3); try assumption; [intros ions E; split; [apply I1; exact E|apply Ci; exact E]|].
  destruct (famO_opt _ _ H2) as (Y2 & HY2 & E2). destruct (famO_opt _ _ H3) as (Y3 & HY3 & E3).
  unfold extended_call. apply (smooth_none (famL (famL fam2)) (fun t => extended_orbital_matrices e (X t)) (fun _ => psi_from_orbitals m)); [|intros O HO _; apply psi_smooth; assumption].
  set (n0 := length (X 0)).
  apply (famO_ext _ (fun t => bind_opt (stream1 (fn_streams m) (X t)) (fun s => check (backflow_ok (fn_backflow m) n0 && Nat.eqb (length (ex_nhidden e)) (get_nsplits (fn_split m)))
    (bind_opt (extended_norbitals e n0) (fun norbs => bind_opt (eval_orbitals m (fn_split m) norbs (backflow (fn_backflow m) s (at_t Y2 t)) (at_t Y3 t)) (fun eqv =>
       bind_opt (extended_invariance e norbs s (at_t Y2 t) (backflow (fn_backflow m) s (at_t Y2 t))) (fun inv => Some (zipw (zipw (fun a b => a ++ b)) eqv inv)))))))).
  { intros t. rewrite <- E2, <- E3. unfold extended_orbital_matrices, stream1, stream2, stream_ei. cbv zeta. fold m. destruct (compute_input_streams (fn_streams m) (X t)) as (((i1, i2), r1), r2). cbn [fst snd]. unfold n0. rewrite <- (fam_length _ X HX t). reflexivity. }
  apply (famO_bind fam2 (famL (famL fam2)) (fun t => stream1 (fn_streams m) (X t)) (fun t s => check (backflow_ok (fn_backflow m) n0 && Nat.eqb (length (ex_nhidden e)) (get_nsplits (fn_split m)))
    (bind_opt (extended_norbitals e n0) (fun norbs => bind_opt (eval_orbitals m (fn_split m) norbs (backflow (fn_backflow m) s (at_t Y2 t)) (at_t Y3 t)) (fun eqv =>
       bind_opt (extended_invariance e norbs s (at_t Y2 t) (backflow (fn_backflow m) s (at_t Y2 t))) (fun inv => Some (zipw (zipw (fun a b => a ++ b)) eqv inv))))))); [|exact H1].
  intros s Hs Es. apply famO_check. intros _. destruct (extended_norbitals e n0) as [norbs|]; [|apply famO_none]. cbn [bind_opt].
  destruct (compute_input_streams (fn_streams m) (X 0)) as (((i1, i2), r1), r2) eqn:E. destruct (streams_shape _ _ _ _ Sx Fi _ _ _ _ E) as (S1 & (d2 & S2) & _).
  pose proof (Es 0) as Es0. specialize (E2 0). unfold stream1 in Es0. unfold stream2 in E2. rewrite E in Es0, E2. cbn [fst snd] in Es0, E2. destruct (S1 _ Es0) as (d1 & Sx1). rewrite E2 in S2.
  assert (HB : fam2 (fun t => backflow (fn_backflow m) (s t) (at_t Y2 t))) by (apply (fam_backflow (fn_backflow m) sizes) with (d := d1) (d2 := d2); try assumption; exact (proj1 Nf)).
  destruct (backflow_shape (fn_backflow m) sizes (s 0) (at_t Y2 0) d1 d2 B Sx1 S2) as (d' & (Lb & _)).
  apply (famO_bind (famL (famL fam2)) (famL (famL fam2)) (fun t => eval_orbitals m (fn_split m) norbs (backflow (fn_backflow m) (s t) (at_t Y2 t)) (at_t Y3 t))
    (fun t eqv => bind_opt (extended_invariance e norbs (s t) (at_t Y2 t) (backflow (fn_backflow m) (s t) (at_t Y2 t))) (fun inv => Some (zipw (zipw (fun a b => a ++ b)) eqv inv)))); [|apply (fam_eval m (fn_split m) norbs (fun t => backflow (fn_backflow m) (s t) (at_t Y2 t)) Y3 Nf Ok HB HY3)].
  intros Q HQ _.
  apply (famO_bind (famL (famL fam2)) (famL (famL fam2)) (fun t => extended_invariance e norbs (s t) (at_t Y2 t) (backflow (fn_backflow m) (s t) (at_t Y2 t))) (fun t inv => Some (zipw (zipw (fun a b => a ++ b)) (Q t) inv))).
  - intros I HI _. apply famO_some. apply (fam_zipw (famL fam2) (famL fam2) (famL fam2) (fun _ => zipw (fun a b : arr2 => a ++ b))); [|exact HQ|exact HI]. intros f g Hf Hg. apply (fam_zipw fam2 fam2 fam2 (fun _ (a b : arr2) => a ++ b)); [|exact Hf|exact Hg]. intros a b Ha Hb. apply fam_app; assumption.
  - unfold extended_invariance. cbv zeta. fold m. apply (famO_ext _ (fun t => check (match ex_backflow e with Some bs => backflow_ok bs (length (s 0)) | None => true end)
      (sequence (map (reshape_raw_orbitals (fn_ndet m)) (invariant_tensor (fn_split m) None (invariance_params (ex_dense e) (zipw (fun h n => (h, (n * fn_ndet m)%nat)) (ex_nhidden e) norbs)) (match ex_backflow e with Some bs => backflow bs (s t) (at_t Y2 t) | None => backflow (fn_backflow m) (s t) (at_t Y2 t) end) None))))).
    { intros t. rewrite (fam_length _ s Hs t). reflexivity. }
    apply famO_check. intros _. apply (famO_sequence fam2 (famL fam2) (fun _ => reshape_raw_orbitals (fn_ndet m))); [apply fam_reshape|]. unfold extended_backflow_ok in Be.
    apply (fam_tensor (fn_split m) None (ex_dense e) _ sizes (fun t => match ex_backflow e with Some bs => backflow bs (s t) (at_t Y2 t) | None => backflow (fn_backflow m) (s t) (at_t Y2 t) end) (fun _ => None) D Ps Hd); destruct (ex_backflow e) as [bs|].
    + destruct (backflow_shape bs sizes (s 0) (at_t Y2 0) d1 d2 Be Sx1 S2) as (dd & (Ld & _)). exact Ld.
    + exact Lb.
    + destruct (Bf bs eq_refl) as (Bf1 & Bf2). apply (fam_backflow bs sizes) with (d := d1) (d2 := d2); assumption.
    + exact HB.
Qed.

(** ** Antiequivariant models *)
Lemma fam_remove {A} (P : (R -> A) -> Prop) i X : famL P X -> famL P (fun t => remove_at i (X t)).
Proof. intros H. unfold remove_at. apply fam_app; [apply fam_firstn|apply fam_skipn]; exact H. Qed.
Lemma fam_cofactor A : fam2 A -> famO fam1 (fun t => cofactor_antieq (A t)).
Proof.
  intros H. unfold cofactor_antieq, get_submatrices_along_first_col.
  apply (famO_ext _ (fun t => if is_square (A 0) then bind_opt (sequence (map linalg_det (map (fun i => map (fun row => remove_at 0 row) (remove_at i (A t))) (seq 0 (length (A 0)))))) (fun dets =>
     if Nat.eqb (length (A 0)) 0 then None else Some (zipw xmul (map (fun row => nth 0 row (Fin 0)) (A t)) (zipw (fun s d => xmul (Fin s) d) (get_alternating_signs (length (A 0))) dets))) else None)).
  { intros t. rewrite (square_fam A H t), (fam_length _ A H t). destruct (is_square (A 0)); reflexivity. }
  destruct (is_square (A 0)); [|apply famO_none].
  apply (famO_bind fam1 fam1 (fun t => sequence (map linalg_det (map (fun i => map (fun row => remove_at 0 row) (remove_at i (A t))) (seq 0 (length (A 0)))))) (fun t dets =>
     if Nat.eqb (length (A 0)) 0 then None else Some (zipw xmul (map (fun row => nth 0 row (Fin 0)) (A t)) (zipw (fun s d => xmul (Fin s) d) (get_alternating_signs (length (A 0))) dets)))).
  - intros dets Hd _. destruct (Nat.eqb _ 0); [apply famO_none|]. apply famO_some. apply (fam_zipw sm sm sm (fun _ => xmul)); [intros f g; apply sm_mul| |].
    + apply (fam_map fam1 sm (fun _ row => nth 0 row (Fin 0))); [|exact H]. intros f Hf. apply sm_nth. exact Hf.
    + apply (fam_zipw_r sm sm (fun _ s d => xmul (Fin s) d)); [|exact Hd]. intros f s Hf _. apply sm_mul; [apply sm_const; reflexivity|exact Hf].
  - apply (famO_sequence fam2 sm (fun _ => linalg_det)); [apply fam_linalg_det|]. apply (fam_index fam2 (fun t i => map (fun row => remove_at 0 row) (remove_at i (A t)))). intros i _.
    apply (fam_map fam1 fam1 (fun _ row => remove_at 0 row)); [intros f Hf; apply fam_remove; exact Hf|apply fam_remove; exact H].
Qed.
Lemma fam_doubly l X Rr : Forall orbital_fin (ol_splits l) -> fin (ol_soft l) -> (ol_isotropic l = true \/ ol_soft l <> Fin 0) -> fam2 X -> opt_fam (famL (famL clear)) Rr ->
  famL (famL fam2) (fun t => doubly_equivariant_orbitals l (X t) (at_t Rr t)).
Proof.
  intros Ho Hs Ok HX HR. unfold doubly_equivariant_orbitals. cbv zeta. rewrite Forall_forall in Ho.
  assert (A : famL (famL fam2) (fun t => zipw (fun rows p => orbital_matrices_one_split p rows) (pieces (ol_split l) (X t)) (ol_splits l))).
  { apply (fam_zipw_l fam2 (famL fam2) (fun _ rows p => orbital_matrices_one_split p rows)); [|apply fam_pieces; exact HX]. intros rows p Hrows Hp. destruct (Ho p Hp) as (Hk & Hb & _). unfold orbital_matrices_one_split. cbv zeta.
    apply (fam_ext _ (fun t => map (map (dense (o_norb p) (o_kernel p) (o_bias p))) (zipw (zipw (fun a b : vec => a ++ b)) (map (fun row => repeat row (length (rows 0))) (rows t)) (repeat (rows t) (length (rows 0)))))); [intros t; rewrite (fam_length _ rows Hrows t); reflexivity|].
    apply (fam_map fam2 fam2 (fun _ => map (dense (o_norb p) (o_kernel p) (o_bias p)))); [intros f Hf; apply fam_dense_rows; assumption|].
    apply (fam_zipw fam2 fam2 fam2 (fun _ => zipw (fun a b : vec => a ++ b))).
    - intros f g Hf Hg. apply (fam_zipw fam1 fam1 fam1 (fun _ (a b : vec) => a ++ b)); [intros a b Ha Hb'; apply fam_app; assumption|exact Hf|exact Hg].
    - apply (fam_map fam1 fam2 (fun _ row => repeat row (length (rows 0)))); [|exact Hrows]. intros f Hf. apply fam_repeat. exact Hf.
    - apply fam_repeat. exact Hrows. }
  destruct Rr as [r|]; cbn [at_t opt_fam] in *; [|exact A].
  apply (fam_zipw (famL fam2) fam2 (famL fam2) (fun _ o env => map (fun m => zipw (zipw xmul) m env) o)); [|exact A|].
  - intros o env Ho' He. apply (fam_map fam2 fam2 (fun t m => zipw (zipw xmul) m (env t))); [|exact Ho']. intros m Hm. apply (fam_zipw fam1 fam1 fam1 (fun _ => zipw xmul)); [|exact Hm|exact He]. intros u v Hu Hv. apply (fam_zipw sm sm sm (fun _ => xmul)); [intros a b; apply sm_mul|exact Hu|exact Hv].
  - unfold envelopes. apply (fam_zipw_l (famL (famL clear)) fam2 (fun _ rows p => map (fun row => map (envelope l p row) (seq 0 (o_norb p))) rows)); [|apply fam_pieces; exact HR]. intros rows p Hrows Hp.
    apply (fam_map (famL clear) fam1 (fun _ row => map (envelope l p row) (seq 0 (o_norb p)))); [|exact Hrows]. intros row Hrow. apply (fam_index sm (fun t orb => envelope l p (row t) orb)). intros orb _. apply sm_envelope; [apply Ho; exact Hp|exact Hs|exact Ok|exact Hrow].
Qed.
Lemma fam_antieq_layer a X Rr : (forall i, orbital_fin (an_orbitals a i)) -> fin (an_soft a) -> (an_isotropic a = true \/ an_soft a <> Fin 0) -> fam2 X -> opt_fam (famL (famL clear)) Rr ->
  famO fam2 (fun t => antieq_layer a (X t) (at_t Rr t)).
Proof.
  intros Ho Hs Ok HX HR. unfold antieq_layer.
  apply (famO_ext _ (fun t => bind_opt (bind_opt (get_nelec_per_split (an_split a) (length (X 0))) to_nats) (fun norbs => check (splittable (an_split a) (length (X 0)))
    (match an_kind a with Cofactor => orbital_cofactor_layer (Build_orbital_layer (an_split a) (an_soft a) (an_isotropic a) (mapi (fun i n => set_norb n (an_orbitals a i)) norbs)) (X t) (at_t Rr t)
     | PerParticle => per_particle_determinant_layer (Build_orbital_layer (an_split a) (an_soft a) (an_isotropic a) (mapi (fun i n => set_norb n (an_orbitals a i)) norbs)) (X t) (at_t Rr t) end)))); [intros t; rewrite (fam_length _ X HX t); reflexivity|].
  destruct (bind_opt _ to_nats) as [norbs|]; [|apply famO_none]. cbn [bind_opt]. apply famO_check. intros _. set (l := Build_orbital_layer _ _ _ _).
  assert (Fo : Forall orbital_fin (ol_splits l)) by (cbn [l ol_splits]; apply mapi_forall; intros i n _; apply set_norb_fin, Ho).
  destruct (an_kind a).
  - unfold orbital_cofactor_layer. apply (famO_sequence fam2 fam1 (fun _ => cofactor_antieq)); [apply fam_cofactor|]. apply fam_orbitals; assumption.
  - unfold per_particle_determinant_layer. apply (famO_sequence (famL fam2) fam1 (fun _ ms => sequence (map linalg_det ms))); [|apply fam_doubly; assumption]. intros f Hf. apply (famO_sequence fam2 sm (fun _ => linalg_det)); [apply fam_linalg_det|exact Hf].
Qed.
Lemma fam_scale2 s X : fam2 X -> fam2 (fun t => map (vscale (Fin s)) (X t)).
Proof. intros H. apply (fam_map fam1 fam1 (fun _ => vscale (Fin s))); [intros f Hf; apply fam_vscale; exact Hf|exact H]. Qed.
Lemma fam_odd bs sizes X d n dout : built_for sizes bs -> Forall block_fin bs -> Forall block_act bs -> positive sizes -> Forall2 (fun n m => shape2 n d m) sizes (X 0) -> famL fam2 X ->
  fam2 (fun t => make_array_list_fn_sign_covariant2 n dout (fun y => backflow bs (concat y) None) (X t)).
Proof.
  intros B Bf Ba Ps Sh HX. unfold make_array_list_fn_sign_covariant2.
  apply (fam_ext _ (fun t => msum n dout (map (fun k => map (vscale (Fin (symmetry_sign (length (X 0)) k))) (backflow bs (concat (symmetry (fun s => map (vscale (Fin s))) (X t) k)) None)) (seq 0 (2 ^ length (X 0)))))); [intros t; rewrite apply_spec; unfold results; rewrite (fam_length _ X HX t); reflexivity|].
  assert (G : famL fam2 (fun t => map (fun k => map (vscale (Fin (symmetry_sign (length (X 0)) k))) (backflow bs (concat (symmetry (fun s => map (vscale (Fin s))) (X t) k)) None)) (seq 0 (2 ^ length (X 0))))).
  { apply (fam_index fam2 (fun t k => map (vscale (Fin (symmetry_sign (length (X 0)) k))) (backflow bs (concat (symmetry (fun s => map (vscale (Fin s))) (X t) k)) None))). intros k _. apply fam_scale2.
    set (W := fun t => concat (symmetry (fun s => map (vscale (Fin s))) (X t) k)). apply (fam_backflow bs sizes B Bf Ba Ps W None d 0%nat); [|exact Logic.I| |exact Logic.I].
    - unfold W. apply concat_shape. unfold symmetry. unfold mapi, zipw. clear -Sh. generalize 0%nat as o. induction Sh as [|m x sizes xs S0 _ IH]; intros o; [constructor|]. cbn [length seq combine map fst snd]. constructor; [apply scaled_shape; exact S0|apply IH].
    - unfold W. apply fam_concat. unfold symmetry. apply (fam_mapi fam2 fam2 (fun _ i m => map (vscale (Fin _)) m)); [|exact HX]. intros i f Hf. apply fam_scale2. exact Hf. }
  set (Z := fun t => map _ _) in *. unfold msum. apply (fam_index fam1 (fun t i => vsum dout (map (fun m => nth i m []) (Z t)))). intros i _. apply fam_vsum, (fam_map fam2 fam1 (fun _ m => nth i m [])); [|exact G]. intros f Hf. apply fam_row. exact Hf.
Qed.
Lemma fam_lengths {A} (P : (R -> A) -> Prop) X : famL (famL P) X -> forall t, map (@length A) (X t) = map (@length A) (X 0).
Proof. intros (l & E & F) t. rewrite !E, !map_map. clear E. induction F as [|f l Hf _ IH]; [reflexivity|]. cbn [map]. rewrite IH, (fam_length _ f Hf t). reflexivity. Qed.
Definition readout_act (c : sign_covariance) : Prop := match c with Products _ => True | OddBackflow bs => Forall block_act bs end.
Lemma antieq_smooth a sizes d X : describes (an_split a) sizes -> an_split a <> At [] -> built_for sizes (an_backflow a) -> ions_fit d (an_streams a) -> readout_ok sizes (an_cov a) -> positive sizes -> antieq_fin a -> streams_fin (an_streams a) ->
  Forall block_act (an_backflow a) -> readout_act (an_cov a) -> (an_isotropic a = true \/ an_soft a <> Fin 0) ->
  away (an_streams a) (X 0) -> shape2 (list_sum sizes) d (X 0) -> fam2 X -> smooth_value (fun t => antieq_net_call a (X t)).
Proof.
  intros D Ns B Fi Rc Ps (Bf & Ho & Hs & Hc) (I1 & I2 & I3) Ba Ra Ok (Ci & Ap) Sx HX. set (o := an_streams a) in *.
  destruct (streams_smooth o X) as (H1 & H2 & H3); try assumption; [intros ions E; split; [apply I1; exact E|apply Ci; exact E]|].
  destruct (famO_opt _ _ H2) as (Y2 & HY2 & E2). destruct (famO_opt _ _ H3) as (Y3 & HY3 & E3). set (n0 := length (X 0)).
  apply (smooth_ext (fun t => bind_opt (stream1 o (X t)) (fun s => check (backflow_ok (an_backflow a) n0)
    (bind_opt (antieq_layer a (backflow (an_backflow a) s (at_t Y2 t)) (at_t Y3 t)) (fun vs => bind_opt (antieq_out a vs (backflow (an_backflow a) s (at_t Y2 t))) (fun out =>
      bind_opt (apply_sign_covariance (an_cov a) out) (fun v => Some (array_to_slog (xsum v))))))))).
  { intros t. rewrite <- E2, <- E3. unfold antieq_net_call, stream1, stream2, stream_ei, antieq_out. fold o. destruct (compute_input_streams o (X t)) as (((i1, i2), r1), r2). cbn [fst snd]. unfold n0. rewrite <- (fam_length _ X HX t). reflexivity. }
  apply (smooth_none fam2 (fun t => stream1 o (X t)) (fun t s => check (backflow_ok (an_backflow a) n0)
    (bind_opt (antieq_layer a (backflow (an_backflow a) s (at_t Y2 t)) (at_t Y3 t)) (fun vs => bind_opt (antieq_out a vs (backflow (an_backflow a) s (at_t Y2 t))) (fun out =>
      bind_opt (apply_sign_covariance (an_cov a) out) (fun v => Some (array_to_slog (xsum v)))))))); [exact H1|].
  intros s Hs1 Es. apply smooth_check. intros _.
  destruct (compute_input_streams o (X 0)) as (((i1, i2), r1), r2) eqn:E. destruct (streams_shape _ _ _ _ Sx Fi _ _ _ _ E) as (S1 & (d2 & S2) & S3 & _).
  pose proof (Es 0) as Es0. pose proof (E2 0) as E20. pose proof (E3 0) as E30. unfold stream1 in Es0. unfold stream2 in E20. unfold stream_ei in E30. rewrite E in Es0, E20, E30. cbn [fst snd] in Es0, E20, E30. destruct (S1 _ Es0) as (d1 & Sx1). rewrite E20 in S2. rewrite E30 in S3.
  set (bo := fun t => backflow (an_backflow a) (s t) (at_t Y2 t)).
  assert (HB : fam2 bo) by (apply (fam_backflow (an_backflow a) sizes) with (d := d1) (d2 := d2); assumption).
  destruct (backflow_shape (an_backflow a) sizes (s 0) (at_t Y2 0) d1 d2 B Sx1 S2) as (d' & Sb). change (shape2 (list_sum sizes) d' (bo 0)) in Sb. pose proof Sb as (Lb & _).
  apply (smooth_none fam2 (fun t => antieq_layer a (bo t) (at_t Y3 t)) (fun t vs => bind_opt (antieq_out a vs (bo t)) (fun out => bind_opt (apply_sign_covariance (an_cov a) out) (fun v => Some (array_to_slog (xsum v)))))); [apply fam_antieq_layer; assumption|].
  intros vs Hv Ev.
  assert (Lv : map (@length xr) (vs 0) = sizes).
  { specialize (Ev 0). unfold antieq_layer in Ev. rewrite Lb, (nelec_describes _ sizes D Ns) in Ev. cbn [bind_opt] in Ev. rewrite to_nats_of in Ev. cbn [bind_opt] in Ev. apply check_some in Ev. destruct Ev as (_ & Ev).
    set (ly := Build_orbital_layer _ _ _ _) in Ev. assert (Oly : orbitals_ok sizes ly) by (split; [exact D|cbn; apply mapi_length]). change (layer_of (an_kind a) ly (bo 0) (at_t Y3 0) = Some (vs 0)) in Ev.
    apply (layer_lengths (an_kind a) ly sizes (bo 0) (at_t Y3 0) (vs 0) Oly Lb); [destruct (at_t Y3 0); [exact S3|exact Logic.I]|exact Ev]. }
  set (F := fun t => zipw (feature_row (an_multiply a)) (bo t) (concat (vs t))).
  assert (HF : fam2 F).
  { unfold F. apply (fam_zipw fam1 sm fam1 (fun _ => feature_row (an_multiply a))); [|exact HB|apply fam_concat; exact Hv]. intros row v Hrow Hv0. unfold feature_row. destruct (an_multiply a); [|apply fam_one; exact Hv0].
    apply (fam_map sm sm (fun t f => xmul f (v t))); [|exact Hrow]. intros f Hf. apply sm_mul; assumption. }
  assert (SF : shape2 (list_sum sizes) (if an_multiply a then d' else 1%nat) (F 0)).
  { split; [unfold F; rewrite zipw_length, concat_lengths, Lv; lia|]. unfold F. apply (zipw_forall (fun r : vec => length r = d') (fun _ => True) (fun r : vec => length r = if an_multiply a then d' else 1%nat)); [|apply Sb|apply Forall_forall; intros; exact Logic.I].
    intros row v Hr _. unfold feature_row. destruct (an_multiply a); [rewrite map_length; exact Hr|reflexivity]. }
  apply (smooth_ext (fun t => bind_opt (apply_sign_covariance (an_cov a) (cut sizes (F t))) (fun v => Some (array_to_slog (xsum v))))).
  { intros t. rewrite (antieq_out_spec a sizes (vs t) (bo t) D); [reflexivity|rewrite (fam_lengths sm vs Hv t); exact Lv|rewrite (fam_length _ bo HB t); exact Lb]. }
  assert (HO : famL fam2 (fun t => cut sizes (F t))) by (apply fam_cut; exact HF).
  apply (smooth_none fam1 (fun t => apply_sign_covariance (an_cov a) (cut sizes (F t))) (fun _ v => Some (array_to_slog (xsum v)))).
  - destruct (an_cov a) as [w|bs]; cbn [apply_sign_covariance readout_act readout_fin readout_ok] in *.
    + unfold products_sign_covariance. destruct HO as (l & El & Fl). destruct l as [|up [|down [|z l]]]; try (apply (famO_ext _ (fun _ => None)); [intros t; rewrite El; reflexivity|apply famO_none]).
      pose proof (Forall_inv Fl) as Hu. pose proof (Forall_inv (Forall_inv_tail Fl)) as Hd. clear Fl.
      assert (P : fam2 (fun t => map (fun u => map (dot u) (down t)) (up t))).
      { apply (fam_map fam1 fam1 (fun t u => map (dot u) (down t))); [|exact Hu]. intros u Hu0. apply (fam_map fam1 sm (fun t => dot (u t))); [|exact Hd]. intros w0 Hw0. unfold dot. apply sm_sum, (fam_zipw sm sm sm (fun _ => xmul)); [intros f g; apply sm_mul|exact Hu0|exact Hw0]. }
      destruct w as [k|].
      * apply (famO_ext _ (fun t => Some (dense 1 k None (concat (map (fun u => map (dot u) (down t)) (up t)))))); [intros t; rewrite El; reflexivity|]. apply famO_some, fam_dense; [apply (Hc k eq_refl)|discriminate|apply fam_concat; exact P].
      * apply (famO_ext _ (fun t => Some [xsum (map xsum (map (fun u => map (dot u) (down t)) (up t)))])); [intros t; rewrite El; reflexivity|]. apply famO_some, (fam_one sm (fun t => xsum (map xsum (map (fun u => map (dot u) (down t)) (up t))))), sm_sum, (fam_map fam1 sm (fun _ => xsum)); [intros f; apply sm_sum|exact P].
    + cbv zeta. assert (LC : forall t, length (concat (cut sizes (F t))) = length (concat (cut sizes (F 0)))) by (apply (fam_length fam1), fam_concat; exact HO).
      assert (WC : forall t, width (concat (cut sizes (F t))) = width (concat (cut sizes (F 0)))) by (intros t; apply (fam_width (fun t => concat (cut sizes (F t)))), fam_concat; exact HO).
      apply (famO_ext _ (fun t => check (backflow_ok bs (length (concat (cut sizes (F 0))))) (Some (vsum (backflow_width bs (width (concat (cut sizes (F 0))))) (make_array_list_fn_sign_covariant2 (length (concat (cut sizes (F 0)))) (backflow_width bs (width (concat (cut sizes (F 0))))) (fun y => backflow bs (concat y) None) (cut sizes (F t)))))));
        [intros t; rewrite (LC t), (WC t); reflexivity|].
      apply famO_check. intros _. apply famO_some, fam_vsum. apply (fam_odd bs sizes (fun t => cut sizes (F t)) (if an_multiply a then d' else 1%nat)); try assumption. clear -SF. revert SF. generalize (F 0) as x, (if an_multiply a then d' else 1%nat) as dd. intros x dd Sx.
      apply cut_shapes. exact Sx.
  - intros v Hv0 _. pose proof (sm_sum v Hv0) as (g & Eg & Dg). apply (D2_ext g); [|exact Dg]. intros t. rewrite Eg, number_array. reflexivity.
Qed.
