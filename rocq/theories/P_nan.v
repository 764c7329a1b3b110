(** * Proofs: a spin species without electrons turns a FermiNet into NaN (C82) *)
From Coq Require Import String Reals List Bool Arith Lia Lra ZArith.
From Verif Require Import XReal Rsum S_physics M_slog M_models M_antisym M_construct M_dispatch S_models S_antisym S_construct S_finite P_xsum P_slog P_split P_equiv P_equiv2 P_jastrow P_models P_inv P_parity P_flips P_sgn P_antisym P_antieq P_leibniz P_signsym P_construct P_construct2 P_construct3 P_construct4 P_construct5 P_dispatch P_total P_finite P_finite2 P_finite3.
Import ListNotations.
Local Open Scope R_scope.

Definition nans (v : vec) : Prop := Forall (eq NaN) v.
Definition nan_rows (x : arr2) : Prop := Forall nans x.
Lemma mul_nan_r a : xmul a NaN = NaN. Proof. destruct a; reflexivity. Qed.
Lemma mul_nan_l a : xmul NaN a = NaN. Proof. destruct a; reflexivity. Qed.
Lemma add_nan_r a : xadd a NaN = NaN. Proof. destruct a; reflexivity. Qed.
Lemma add_nan_l a : xadd NaN a = NaN. Proof. destruct a; reflexivity. Qed.
Lemma mean_empty d : nans (vmean d []).
Proof. unfold vmean. apply Forall_map, Forall_forall. intros c _. cbn [map length INR xsum fold_right]. cbn. unfold xdiv. cbn. destruct (Req_EM_T 0 0); [|congruence]. unfold inf_of_sign. destruct (Rlt_dec 0 0); [lra|]. reflexivity. Qed.
Lemma weighted_nan w v : In NaN v -> weighted_sum w v = NaN.
Proof.
  intros H. unfold weighted_sum. apply xsum_nan. apply (In_nth _ _ (Fin 0)) in H. destruct H as (i & Hi & Ei). apply in_map_iff. exists (i, NaN). split; [cbn [fst snd]; apply mul_nan_l|].
  rewrite <- Ei. replace (i, nth i v (Fin 0)) with (nth i (combine (seq 0 (length v)) v) (0%nat, Fin 0)); [apply nth_In; rewrite combine_length, seq_length; lia|]. rewrite combine_nth by apply seq_length. rewrite seq_nth by lia. reflexivity.
Qed.
Lemma dense_nan f k b v : In NaN v -> nans (dense f k b v).
Proof. intros H. unfold dense. apply Forall_map, Forall_forall. intros c _. cbv zeta. rewrite weighted_nan by exact H. destruct b as [b|]; [rewrite add_nan_l|]; reflexivity. Qed.
Lemma dense_len f k b v : length (dense f k b v) = f.
Proof. unfold dense. rewrite map_length, seq_length. reflexivity. Qed.
Lemma zip_nan_r {A} (f : A -> xr -> xr) u v : (forall a, f a NaN = NaN) -> nans v -> nans (zipw f u v).
Proof. intros Hf H. unfold zipw. revert u. induction H as [|b v <- _ IH]; intros [|a u]; cbn [combine map]; try constructor. - cbn [fst snd]. symmetry. apply Hf. - apply IH. Qed.
Lemma zip_nan_l {A} (f : xr -> A -> xr) u v : (forall a, f NaN a = NaN) -> nans u -> nans (zipw f u v).
Proof. intros Hf H. unfold zipw. revert v. induction H as [|b u <- _ IH]; intros [|a v]; cbn [combine map]; try constructor. - cbn [fst snd]. symmetry. apply Hf. - apply IH. Qed.
Lemma zip_len {A B C} (f : A -> B -> C) u v n : length u = n -> length v = n -> length (zipw f u v) = n.
Proof. intros H1 H2. unfold zipw. rewrite map_length, combine_length. lia. Qed.
Lemma act_nan name act : get_named_activation_fn name = Some act -> act NaN = NaN.
Proof. unfold get_named_activation_fn. destruct (String.eqb name _); [intros [= <-]; reflexivity|]. destruct (String.eqb name _); [intros [= <-]; reflexivity|discriminate]. Qed.
Lemma in_roll {A} b (l : list A) a : In a l -> In a (roll b l).
Proof. intros H. unfold roll. rewrite <- (firstn_skipn b l) in H. apply in_app_or in H. apply in_or_app. tauto. Qed.
Lemma cut_empty {A} sizes (x : list A) : In 0%nat sizes -> In [] (cut sizes x).
Proof. revert x. induction sizes as [|n sizes IH]; intros x H; [contradiction|]. cbn [cut]. destruct H as [->|H]; [left; reflexivity|right; apply IH; exact H]. Qed.
Lemma nans_in v : nans v -> (0 < length v)%nat -> In NaN v.
Proof. intros H L. destruct v as [|a v]; [cbn in L; lia|]. apply Forall_inv in H. subst a. left. reflexivity. Qed.

(** One layer without attention, for spin populations with an empty one. *)
Definition deaf (b : block) : Prop := l1_attention (b_one b) = None /\ (0 < l1_ndense (b_one b))%nat /\ l1_act (b_one b) NaN = NaN.
Lemma row_nan p sizes x y b xi yi : l1_attention p = None -> l1_act p NaN = NaN -> In 0%nat sizes -> (0 < width x)%nat -> length xi = width x ->
  nans (layer_row p sizes x y b xi yi) /\ length (layer_row p sizes x y b xi yi) = l1_ndense p.
Proof.
  intros Na Ha Z W L.
  assert (M : nans (mix_row p sizes x b xi) /\ length (mix_row p sizes x b xi) = l1_ndense p).
  { unfold mix_row. rewrite Na. unfold mixed_term. split; [|apply dense_len]. apply dense_nan.
    assert (I : In (vmean (width x) []) (spin_means sizes x)) by (unfold spin_means; apply in_map, cut_empty, Z).
    assert (V : In NaN (vmean (width x) [])) by (apply nans_in; [apply mean_empty|unfold vmean; rewrite map_length, seq_length; exact W]).
    destruct (l1_cyclic p); apply in_concat; exists (vmean (width x) []); (split; [|exact V]); [apply in_roll|]; exact I. }
  destruct M as (M1 & M2). unfold layer_row. cbv zeta. set (u := vadd (dense _ _ _ xi) _).
  assert (U : nans u /\ length u = l1_ndense p) by (split; [apply zip_nan_r; [apply add_nan_r|exact M1]|apply zip_len; [apply dense_len|exact M2]]). destruct U as (U1 & U2). clearbody u.
  set (u' := match y with Some y => _ | None => u end).
  assert (U' : nans u' /\ length u' = l1_ndense p).
  { unfold u'. destruct y as [y|]; [|split; assumption]. split; [apply zip_nan_l; [apply add_nan_l|exact U1]|apply zip_len; [exact U2|unfold two_term; cbv zeta; apply dense_len]]. }
  destruct U' as (V1 & V2). clearbody u'.
  assert (A : nans (map (l1_act p) u') /\ length (map (l1_act p) u') = l1_ndense p).
  { split; [|rewrite map_length; exact V2]. apply Forall_map. eapply Forall_impl; [|exact V1]. intros a <-. symmetry. exact Ha. }
  destruct A as (A1 & A2). destruct (l1_skip p && Nat.eqb (width x) (l1_ndense p)) eqn:Es; [|split; assumption]. apply andb_true_iff in Es. destruct Es as (_ & Es). apply Nat.eqb_eq in Es.
  split; [apply zip_nan_l; [intros a; rewrite add_nan_l; apply mul_nan_r|exact A1]|apply zip_len; [exact A2|congruence]].
Qed.
Lemma layer_nan p sizes x y d d2 : describes (l1_split p) sizes -> l1_attention p = None -> l1_act p NaN = NaN -> In 0%nat sizes -> (0 < list_sum sizes)%nat -> (0 < d)%nat -> shape2 (list_sum sizes) d x -> shape_opt (list_sum sizes) d2 y ->
  nan_rows (one_electron_layer p x y) /\ shape2 (list_sum sizes) (l1_ndense p) (one_electron_layer p x y).
Proof.
  intros D Na Ha Z N Hd Sx Sy. pose proof (shape_width _ _ _ N Sx) as W. rewrite (one_electron_rows p sizes x y D (proj1 Sx) (shape3_good _ d2 y Sy)).
  assert (H : forall i, (i < list_sum sizes)%nat -> let r := layer_row p sizes x y (spin_of sizes i) (nth i x []) (rows_of y i) in nans r /\ length r = l1_ndense p).
  { intros i Hi. apply row_nan; try assumption; rewrite W; [exact Hd|]. destruct Sx as (L & F). rewrite Forall_forall in F. apply F, nth_In. lia. }
  split; [|split; [rewrite map_length, seq_length; reflexivity|]]; apply Forall_map, Forall_forall; intros i Hi; apply in_seq in Hi; apply H; lia.
Qed.
Lemma flow_nan bs sizes : blocks_ok sizes bs -> Forall deaf bs -> In 0%nat sizes -> (0 < list_sum sizes)%nat -> forall x y d d2, (0 < d)%nat -> shape2 (list_sum sizes) d x -> shape_opt (list_sum sizes) d2 y ->
  bs <> [] \/ nan_rows x -> exists d', (0 < d')%nat /\ nan_rows (backflow bs x y) /\ shape2 (list_sum sizes) d' (backflow bs x y).
Proof.
  intros B F Z N. unfold backflow. induction B as [|b bs Hb _ IH]; intros x y d d2 Hd Sx Sy Hn.
  - destruct Hn as [Hn|Hn]; [congruence|]. exists d. split; [exact Hd|]. split; assumption.
  - cbn [backflow_streams]. destruct (Forall_inv F) as (F1 & F2 & F3). apply Forall_inv_tail in F. destruct (residual_shape b sizes x y d d2 Hb Sx Sy) as (d' & d2' & _ & S2).
    destruct (layer_nan (b_one b) sizes x y d d2 Hb F1 F3 Z N Hd Sx Sy) as (H1 & H2). assert (E : fst (residual_block b x y) = one_electron_layer (b_one b) x y) by reflexivity.
    destruct (residual_block b x y) as (x', y'). cbn [fst snd] in *. subst x'. apply (IH F _ y' (l1_ndense (b_one b)) d2'); try assumption. right. exact H1.
Qed.

(** Orbitals. *)
Lemma orbitals_nan l sizes x r d : describes (ol_split l) sizes -> (0 < d)%nat -> nan_rows x -> shape2 (list_sum sizes) d x -> Forall nan_rows (ferminet_orbitals l x r).
Proof.
  intros D Hd Nx (L & F). unfold ferminet_orbitals. cbv zeta.
  assert (A : Forall nan_rows (split_dense l x)).
  { unfold split_dense. apply (zipw_forall (Forall (fun v => In NaN v)) (fun _ => True) nan_rows); [intros rows p Fr _| |apply Forall_forall; intros; exact Logic.I].
    - apply Forall_map. eapply Forall_impl; [|exact Fr]. intros v Hv. apply dense_nan. exact Hv.
    - apply (pieces_forall _ _ sizes); try assumption. apply Forall_forall. intros v Hv. unfold nan_rows in Nx. rewrite Forall_forall in Nx, F. apply nans_in; [apply Nx; exact Hv|rewrite (F v Hv); exact Hd]. }
  destruct r as [y|]; [|exact A]. unfold tree_prod. apply (zipw_forall nan_rows (fun _ => True) nan_rows); [|exact A|apply Forall_forall; intros; exact Logic.I].
  intros a b Fa _. apply (zipw_forall nans (fun _ => True) nans); [|exact Fa|apply Forall_forall; intros; exact Logic.I]. intros u v Fu _. apply zip_nan_l; [apply mul_nan_l|exact Fu].
Qed.
Lemma firstn_nans n v : nans v -> nans (firstn n v).
Proof. intros H. apply Forall_forall. intros a Ha. unfold nans in H. rewrite Forall_forall in H. apply H. rewrite <- (firstn_skipn n v). apply in_or_app. left. exact Ha. Qed.
Lemma skipn_nans n v : nans v -> nans (skipn n v).
Proof. intros H. apply Forall_forall. intros a Ha. unfold nans in H. rewrite Forall_forall in H. apply H. rewrite <- (firstn_skipn n v). apply in_or_app. right. exact Ha. Qed.
Lemma reshape_nan nd l r : reshape_raw_orbitals nd l = Some r -> nan_rows l -> Forall nan_rows r.
Proof.
  unfold reshape_raw_orbitals. cbv zeta. destruct (Nat.eqb nd 0); [discriminate|]. destruct (Nat.eqb _ 0); [|discriminate]. intros [= <-] H. apply Forall_map, Forall_forall. intros k _.
  apply Forall_map. eapply Forall_impl; [|exact H]. intros row Hr. apply firstn_nans, skipn_nans, Hr.
Qed.
Lemma eval_nan m osplit sizes norbs x r d O : describes osplit sizes -> (0 < d)%nat -> nan_rows x -> shape2 (list_sum sizes) d x -> eval_orbitals m osplit norbs x r = Some O -> Forall (Forall nan_rows) O.
Proof.
  intros D Hd Nx Sx E. unfold eval_orbitals in E. apply check_some in E. destruct E as (_ & E). revert E.
  apply (sequence_forall2 (reshape_raw_orbitals (fn_ndet m)) nan_rows); [intros a b Eab Ha; apply (reshape_nan _ _ _ Eab Ha)|]. apply (orbitals_nan _ sizes x r d); assumption.
Qed.
Lemma slogdet_nan m n q : (0 < n)%nat -> shape2 n n m -> nan_rows m -> linalg_slogdet m = Some q -> q = (NaN, NaN).
Proof.
  intros N (L & F) H E. unfold linalg_slogdet, linalg_det in E. destruct (is_square m); [|discriminate]. cbn [option_map] in E. apply some_inj in E. subst q.
  destruct m as [|r m]; [cbn in L; lia|]. pose proof (Forall_inv F) as Lr. pose proof (Forall_inv H) as Hr. cbn beta in Lr. destruct r as [|a r]; [cbn in Lr; lia|]. apply Forall_inv in Hr. subst a. reflexivity.
Qed.
Lemma times_nan_l q : slog_multiply (NaN, NaN) q = (NaN, NaN).
Proof. destruct q as (a, b). unfold slog_multiply. cbn [fst snd]. rewrite mul_nan_l, add_nan_l. reflexivity. Qed.
Lemma times_nan_r q : slog_multiply q (NaN, NaN) = (NaN, NaN).
Proof. destruct q as (a, b). unfold slog_multiply. cbn [fst snd]. rewrite mul_nan_r, add_nan_r. reflexivity. Qed.
Lemma fold_nan l : fold_left slog_multiply l (NaN, NaN) = (NaN, NaN).
Proof. induction l as [|q l IH]; [reflexivity|]. cbn [fold_left]. rewrite times_nan_l. exact IH. Qed.
Lemma fold_nan_in l q : In (NaN, NaN) l -> fold_left slog_multiply l q = (NaN, NaN).
Proof. revert q. induction l as [|a l IH]; intros q H; [contradiction|]. destruct H as [->|H]; cbn [fold_left]; [rewrite times_nan_r; apply fold_nan|apply IH; exact H]. Qed.
Lemma reduce_nan l q : In (NaN, NaN) l -> reduce slog_multiply l = Some q -> q = (NaN, NaN).
Proof. destruct l as [|a l]; [contradiction|]. intros H E. apply some_inj in E. subst q. destruct H as [->|H]; [apply fold_nan|apply fold_nan_in; exact H]. Qed.
Lemma product_nan L m n q : In m L -> (0 < n)%nat -> shape2 n n m -> nan_rows m -> slogdet_product L = Some q -> q = (NaN, NaN).
Proof.
  intros I N S H E. unfold slogdet_product in E. destruct (sequence (map linalg_slogdet L)) as [l|] eqn:El; [|discriminate]. refine (reduce_nan l q _ E). clear E.
  revert l El. induction L as [|a L IH]; intros l El; [contradiction|]. cbn [map sequence] in El. destruct (linalg_slogdet a) as [qa|] eqn:Ea; [|discriminate]. destruct (sequence (map linalg_slogdet L)) as [r|]; [|discriminate]. apply some_inj in El. subst l.
  destruct I as [->|I]; [left; exact (slogdet_nan m n qa N S H Ea)|right; apply (IH I r eq_refl)].
Qed.
Lemma products_nan SS l : Forall (fun L => exists m n, In m L /\ (0 < n)%nat /\ shape2 n n m /\ nan_rows m) SS -> sequence (map slogdet_product SS) = Some l -> Forall (fun q => q = (NaN, NaN) \/ q = slog_of 0) l.
Proof.
  intros F. revert l. induction F as [|L SS (m & n & I & N & S & H) _ IH]; intros l E; cbn [map sequence] in E; [injection E as <-; constructor|].
  destruct (slogdet_product L) as [q|] eqn:Eq; [|discriminate]. destruct (sequence (map slogdet_product SS)) as [r|]; [|discriminate]. injection E as <-. constructor; [left; exact (product_nan L m n q I N S H Eq)|apply IH; reflexivity].
Qed.
Lemma psi_nans m sizes O p : oshape (fn_ndet m) (shapes_of (fn_full_det m) sizes) O -> Forall (Forall nan_rows) O -> (0 < list_sum sizes)%nat -> fn_det_fn m = None -> psi_from_orbitals m O = Some p -> p = (NaN, NaN).
Proof.
  intros Sh Fn N Ed E. unfold psi_from_orbitals in E. cbv zeta in E. rewrite Ed in E. apply bind_some in E. destruct E as (l & El & E). unfold slog_sum_over_axis in E.
  apply (log_linear_exp_vanishing l p); [|exact E]. clear E. refine (products_nan _ l _ El). clear El. unfold determinant_slices at 1. apply Forall_map, Forall_forall. intros k Hk. apply in_seq in Hk.
  assert (KN : forall o, In o O -> nan_rows (nth k o [])).
  { intros o Ho. rewrite Forall_forall in Fn. specialize (Fn o Ho). destruct (lt_dec k (length o)) as [H|H]; [|rewrite nth_overflow by lia; constructor]. rewrite Forall_forall in Fn. apply Fn, nth_In, H. }
  destruct (fn_full_det m) eqn:Ef.
  - cbn [map]. exists (concat (map (fun o => nth k o []) O)), (list_sum sizes). split; [left|split; [exact N|split]].
    + rewrite (nth_indep _ [] (concat (map (fun o : list arr2 => nth 0 o []) O))) by (unfold determinant_slices; rewrite !map_length, seq_length; lia).
      unfold determinant_slices. rewrite map_map. rewrite (map_nth (fun i => concat (map (fun o : list arr2 => nth i o []) O)) (seq 0 (fn_ndet m)) 0%nat k). rewrite seq_nth by lia. reflexivity.
    + assert (G : forall c szs OO, oshape (fn_ndet m) (map (fun n => (n, c)) szs) OO -> shape2 (list_sum szs) c (concat (map (fun o => nth k o []) OO))).
      { intros c szs. induction szs as [|n szs IH]; intros OO H; inversion H as [|? ? ? ? (_ & H1) H2]; subst; [split; [reflexivity|constructor]|]. cbn [map concat]. destruct (IH _ H2) as (I1 & I2). destruct (H1 k ltac:(lia)) as (J1 & J2). cbn [fst snd] in *.
        split; [rewrite app_length, J1, I1; reflexivity|apply Forall_app; split; assumption]. }
      apply G. exact Sh.
    + apply Forall_forall. intros v Hv. apply in_concat in Hv. destruct Hv as (mm & Hm & Hv). apply in_map_iff in Hm. destruct Hm as (o & <- & Ho). specialize (KN o Ho). unfold nan_rows in KN. rewrite Forall_forall in KN. apply KN. exact Hv.
  - assert (X : exists n o, (0 < n)%nat /\ In o O /\ shape2 n n (nth k o [])).
    { clear KN Fn. unfold shapes_of in Sh. revert O Sh N. induction sizes as [|n sizes IH]; intros O Sh N; [cbn in N; lia|]. inversion Sh as [|? o ? O' (_ & H1) H2]; subst. destruct n as [|n].
      - destruct (IH O' H2 N) as (n & o' & H3 & H4 & H5). exists n, o'. split; [exact H3|]. split; [right; exact H4|exact H5].
      - exists (S n), o. split; [lia|]. split; [left; reflexivity|]. apply (H1 k ltac:(lia)). }
    destruct X as (n & o & Hn & Ho & So). exists (nth k o []), n. split; [apply in_map_iff; exists o; split; [reflexivity|exact Ho]|]. split; [exact Hn|]. split; [exact So|apply KN; exact Ho].
Qed.
Lemma input_width o n d x ions i1 i2 r1 r2 x1 d1 : so_ion_pos o = Some ions -> ions <> [] -> (0 < n)%nat -> shape2 n d x -> compute_input_streams o x = (i1, i2, r1, r2) -> rows_of_input i1 = Some x1 -> shape2 n d1 x1 -> (0 < d1)%nat.
Proof.
  intros Io Ni N Sx E E1 S1. unfold compute_input_streams in E. rewrite Io in E. unfold compute_electron_ion in E. cbv zeta in E. destruct (so_ei_norm o).
  - assert (Q : i1 = Rows (map (fun row : list vec => concat (map (fun v : list xr => v ++ [softened (so_ei_soft o) (norm v)]) row)) (displacements x ions))) by (destruct (so_2e o); [destruct (compute_electron_electron x (so_ee_norm o) (so_ee_soft o))|]; injection E as <- <- <- <-; reflexivity).
    subst i1. injection E1 as <-. destruct S1 as (L & F). destruct Sx as (Lx & _). destruct x as [|a x]; [cbn in Lx; lia|]. destruct ions as [|b ions]; [congruence|]. cbn [displacements map concat] in F. apply Forall_inv in F. cbn [displacements map concat] in F. rewrite !app_length in F. cbn [length] in F. lia.
  - assert (Q : i1 = Unflattened (displacements x ions)) by (destruct (so_2e o); [destruct (compute_electron_electron x (so_ee_norm o) (so_ee_soft o))|]; injection E as <- <- <- <-; reflexivity). subst i1. discriminate.
Qed.
Lemma ferminet_nan m sizes d x ions p : fits sizes d m -> fn_split m <> At [] -> so_ion_pos (fn_streams m) = Some ions -> ions <> [] -> In 0%nat sizes -> (0 < list_sum sizes)%nat -> fn_backflow m <> [] -> Forall deaf (fn_backflow m) ->
  fn_det_fn m = None -> shape2 (list_sum sizes) d x -> ferminet_call m x = Some p -> p = (NaN, NaN).
Proof.
  intros (D & B & Fi) Ns Io Ni Z N Nb Db Ed Sx E. unfold ferminet_call in E. apply bind_some in E. destruct E as (O & EO & E).
  destruct (matrices_iff m (fn_split m) sizes d x ions D Ns B Fi Io Sx) as (_ & Sh). apply (psi_nans m sizes O p (Sh O EO)); try assumption. clear E Sh.
  unfold ferminet_orbital_matrices in EO. destruct (compute_input_streams (fn_streams m) x) as (((i1, i2), r1), r2) eqn:Es. destruct (streams_shape _ _ _ _ Sx Fi _ _ _ _ Es) as (S1 & (d2 & S2) & S3 & _).
  apply bind_some in EO. destruct EO as (x1 & E1 & EO). apply check_some in EO. destruct EO as (_ & EO). cbv zeta in EO. apply bind_some in EO. destruct EO as (norbs & _ & EO). destruct (S1 x1 E1) as (d1 & Sx1).
  pose proof (input_width _ _ _ _ _ _ _ _ _ _ _ Io Ni N Sx Es E1 Sx1) as Hd. destruct (flow_nan (fn_backflow m) sizes B Db Z N x1 i2 d1 d2 Hd Sx1 S2 (or_introl Nb)) as (d' & Hd' & Hn & Sb).
  exact (eval_nan m (fn_split m) sizes norbs _ r1 d' O D Hd' Hn Sb EO).
Qed.
Lemma built_deaf sp l act ub s1 c1 s2 c2 cy nh th : act NaN = NaN -> Forall (fun w => exists n r, w = n :: r /\ (0 < n)%nat) l -> forall i bs, get_residual_blocks sp l act ub s1 c1 s2 c2 cy false nh i th = Some bs -> Forall deaf bs /\ length bs = length l.
Proof.
  intros Ha F. induction F as [|w l (n & r & -> & Hn) _ IH]; intros i bs E; cbn [get_residual_blocks] in E; [injection E as <-; split; [constructor|reflexivity]|]. cbv zeta in E. apply map_some in E. destruct E as (b & Eb & <-).
  destruct (IH _ _ Eb) as (I1 & I2). split; [|cbn [length]; rewrite I2; reflexivity]. constructor; [|exact I1]. unfold deaf. cbn. repeat split; assumption.
Qed.
