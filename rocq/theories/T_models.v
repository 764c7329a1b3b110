(** * Network layers: C42, C43, C49, C50, C51, C52, C54, C55 *)
From Coq Require Import Reals List Bool Arith Lia Permutation Lra ZArith.
From Verif Require Import XReal Rsum S_physics M_slog M_models S_models P_xsum P_split P_equiv P_equiv2 P_slog P_jastrow P_models.
Import ListNotations.
Local Open Scope R_scope.

(** ** C42 *)
Theorem C42_split_partitions : forall {A} sp sizes (particles : list A),
  describes sp sizes -> length particles = list_sum sizes ->
  exists blocks, split sp particles = Some blocks /\ concat blocks = particles /\ map (@length A) blocks = sizes /\ length blocks = get_nsplits sp.
Proof.
  intros A sp sizes l D L. exists (cut sizes l). split; [apply split_cut; assumption|]. split; [apply cut_concat; exact L|]. split; [apply cut_sizes; exact L|].
  rewrite cut_length. symmetry. apply nsplits_of. exact D.
Qed.
Print Assumptions C42_split_partitions.
Theorem C42_sizes_agree : forall sp sizes, describes sp sizes -> sp <> At [] ->
  get_nelec_per_split sp (list_sum sizes) = Some (map Z.of_nat sizes).
Proof. exact nelec_describes. Qed.
Print Assumptions C42_sizes_agree.
(** The reported sizes add up to the total whatever positions are given. *)
Theorem C42_sizes_add_up : forall sp n l, get_nelec_per_split sp n = Some l ->
  (forall k, sp = Equal k -> exists m, n = (m * k)%nat) -> fold_right Z.add 0%Z l = Z.of_nat n.
Proof. exact nelec_total_any. Qed.
Print Assumptions C42_sizes_add_up.
(** Every increasing list of positions inside the system is a valid specification. *)
Theorem C42_every_specification : forall idx n,
  (forall a, In a idx -> (a <= n)%nat) -> (forall i j, (i <= j < length idx)%nat -> (nth i idx 0 <= nth j idx 0)%nat) ->
  exists sizes, describes (At idx) sizes /\ list_sum sizes = n.
Proof.
  intros idx n B M. destruct (increasing_describes idx 0 n) as (sizes & NE & E & S).
  - intros a [<-|H]; [lia|apply B; exact H].
  - intros [|i] [|j] H; cbn [nth]; try lia. apply M. cbn [length] in H. lia.
  - exists sizes. split; [split; [exact NE|right; rewrite <- E; reflexivity]|exact S].
Qed.
Print Assumptions C42_every_specification.
Theorem C42_spin_split_describes : forall nelec, nelec <> [] -> describes (At (get_spin_split nelec)) nelec.
Proof. intros nelec H. split; [exact H|]. right. unfold get_spin_split. rewrite cumsum_ends. reflexivity. Qed.
Print Assumptions C42_spin_split_describes.
(** An equal split that does not divide the number of particles raises, although the sizes
    are reported without an error and lose particles. *)
Theorem C42_uneven_split_raises : forall {A} k (particles : list A), (0 < k)%nat -> (length particles mod k <> 0)%nat ->
  split (Equal k) particles = None /\
  exists l, get_nelec_per_split (Equal k) (length particles) = Some l /\ (fold_right Z.add 0 l < Z.of_nat (length particles))%Z.
Proof.
  intros A k l K H. split.
  - cbn. destruct (Nat.eqb_spec k 0); [reflexivity|]. destruct (Nat.eqb_spec (length l mod k) 0); [contradiction|reflexivity].
  - cbn. destruct (Nat.eqb_spec k 0) as [|NZ]; [lia|]. eexists. split; [reflexivity|].
    assert (E : fold_right Z.add 0%Z (repeat (Z.of_nat (length l / k)) k) = Z.of_nat (k * (length l / k))).
    { generalize (length l / k)%nat as m. intros m. clear. induction k as [|k IH]; [reflexivity|]. cbn [repeat fold_right]. rewrite IH. lia. }
    rewrite E. apply Nat2Z.inj_lt. pose proof (Nat.div_mod (length l) k NZ). lia.
Qed.
Print Assumptions C42_uneven_split_raises.
(** Full statement "sizes are reported for every valid specification": false for one species,
    whose specification is the empty list of positions (IndexError). *)
Theorem C42_single_species_refuted : forall n, describes (At (get_spin_split [n])) [n] /\ get_nelec_per_split (At (get_spin_split [n])) n = None.
Proof. intros n. split; [apply C42_spin_split_describes; discriminate|reflexivity]. Qed.
Print Assumptions C42_single_species_refuted.
Example C42_example : split (At (get_spin_split [2; 1; 3]%nat)) [10; 11; 12; 13; 14; 15]%nat = Some [[10; 11]; [12]; [13; 14; 15]]%nat
  /\ get_nelec_per_split (At (get_spin_split [2; 1; 3]%nat)) 6 = Some [2; 1; 3]%Z /\ describes (At [2; 3]%nat) [2; 1; 3]%nat
  /\ describes (Equal 2) [3; 3]%nat.
Proof. repeat split; try discriminate; [right; reflexivity|left; exists 2%nat, 3%nat; split; reflexivity]. Qed.

(** ** C43 *)
(** One layer and one block, any parameters (averages or attention, any activation). *)
Theorem C43_layer_equivariant : forall p sizes s x y d d2,
  describes (l1_split p) sizes -> keeps_spins sizes s -> (0 < list_sum sizes)%nat ->
  shape2 (list_sum sizes) d x -> shape3 (list_sum sizes) (list_sum sizes) d2 y ->
  one_electron_layer p (reorder s x) (Some (reorder2 s y)) = reorder s (one_electron_layer p x (Some y)) /\
  one_electron_layer p (reorder s x) None = reorder s (one_electron_layer p x None).
Proof.
  intros p sizes s x y d d2 D K N Sx Sy. split.
  - exact (one_electron_equivariant p sizes s x (Some y) d d2 D K N Sx Sy).
  - exact (one_electron_equivariant p sizes s x None d d2 D K N Sx I).
Qed.
Print Assumptions C43_layer_equivariant.
(** Any number of blocks: both streams. *)
Theorem C43_backflow_equivariant : forall bs sizes s x y d d2,
  Forall (fun b => describes (l1_split (b_one b)) sizes) bs -> keeps_spins sizes s -> (0 < list_sum sizes)%nat ->
  shape2 (list_sum sizes) d x -> shape3 (list_sum sizes) (list_sum sizes) d2 y ->
  backflow bs (reorder s x) (Some (reorder2 s y)) = reorder s (backflow bs x (Some y)) /\
  backflow bs (reorder s x) None = reorder s (backflow bs x None) /\
  (exists y', snd (backflow_streams bs x (Some y)) = Some y' /\
              snd (backflow_streams bs (reorder s x) (Some (reorder2 s y))) = Some (reorder2 s y')).
Proof.
  intros bs sizes s x y d d2 B K N Sx Sy. split; [|split].
  - exact (backflow_equivariant bs sizes s x (Some y) d d2 B K N Sx Sy).
  - exact (backflow_equivariant bs sizes s x None d d2 B K N Sx I).
  - pose proof (backflow_streams_equivariant bs sizes s B K N x (Some y) d d2 Sx Sy) as E. cbn [reorder_opt2] in E. rewrite E. cbn [snd].
    assert (X : exists y', snd (backflow_streams bs x (Some y)) = Some y').
    { clear. revert x y. induction bs as [|b bs IH]; intros x y; [exists y; reflexivity|]. cbn [backflow_streams residual_block].
      destruct (b_two b) as [l|]; apply IH. }
    destruct X as (y' & ->). exists y'. split; reflexivity.
Qed.
Print Assumptions C43_backflow_equivariant.
(** From the electron positions: any ion positions (or none), any stream options. *)
Theorem C43_input_streams_equivariant : forall o s x, renumbering (length x) s ->
  forall i1 i2 r_ei r_ee, compute_input_streams o x = (i1, i2, r_ei, r_ee) ->
  compute_input_streams o (reorder s x) =
  (match i1 with Rows a => Rows (reorder s a) | Unflattened a => Unflattened (reorder s a) end,
   option_map (reorder2 s) i2, option_map (reorder s) r_ei, option_map (reorder2 s) r_ee).
Proof. intros o s x H i1 i2 r1 r2 E. rewrite (input_streams_equivariant o s x H), E. destruct i1, i2, r1, r2; reflexivity. Qed.
Print Assumptions C43_input_streams_equivariant.

Definition C43_layer : layer1 := Build_layer1 (At [2%nat]) 3 (fun i f => Fin (INR (i + f))) (Some (fun f => Fin (INR f))) (fun i f => Fin (INR (i * f))) (fun _ _ => Fin 1)
  None (fun v => xmul v v) true (Fin 1) true.
Lemma exchange_keeps : keeps_spins [2; 1]%nat (exchange 0 1).
Proof.
  split; [unfold renumbering; cbn; apply perm_swap|]. intros i Hi. cbn in Hi. destruct i as [|[|[|i]]]; try reflexivity; lia.
Qed.
Example C43_example : let x := [[Fin 1]; [Fin 2]; [Fin 3]] in
  describes (l1_split C43_layer) [2; 1]%nat /\ keeps_spins [2; 1]%nat (exchange 0 1) /\ shape2 3 1 x /\ reorder (exchange 0 1) x <> x.
Proof.
  cbv zeta. split; [split; [discriminate|right; reflexivity]|]. split; [exact exchange_keeps|]. split; [split; [reflexivity|repeat constructor]|].
  cbn. intros E. injection E as E _. lra.
Qed.

(** ** C49 *)
Theorem C49_invariant_tensor_invariant : forall sp bf ps sizes s x y d d2,
  describes sp sizes -> match bf with Some bs => Forall (fun b => describes (l1_split (b_one b)) sizes) bs | None => True end ->
  keeps_spins sizes s -> (0 < list_sum sizes)%nat -> shape2 (list_sum sizes) d x -> shape3 (list_sum sizes) (list_sum sizes) d2 y ->
  invariant_tensor sp bf ps (reorder s x) (Some (reorder2 s y)) = invariant_tensor sp bf ps x (Some y) /\
  invariant_tensor sp bf ps (reorder s x) None = invariant_tensor sp bf ps x None.
Proof.
  intros sp bf ps sizes s x y d d2 D B K N Sx Sy. split.
  - exact (invariant_tensor_invariant sp bf ps sizes s x (Some y) d d2 D B K N Sx Sy).
  - exact (invariant_tensor_invariant sp bf ps sizes s x None d d2 D B K N Sx I).
Qed.
Print Assumptions C49_invariant_tensor_invariant.
(** It really depends on the electrons: the mean of the first block. *)
Example C49_example : let ps := [((1, 1)%nat, Build_mean_dense 1 (fun _ _ => Fin 1) None); ((1, 1)%nat, Build_mean_dense 1 (fun _ _ => Fin 1) None)] in
  invariant_tensor (At [2%nat]) None ps [[Fin 1]; [Fin 2]; [Fin 5]] None = [[[Fin (3 / 2)]]; [[Fin 5]]].
Proof.
  cbv zeta. cbn. destruct (Req_EM_T (1 + 1) 0); [lra|]. destruct (Req_EM_T 1 0); [lra|]. cbn [xmul xadd]. replace ((1 + (2 + 0)) / (1 + 1) * 1 + 0) with (3 / 2) by field. replace ((5 + 0) / 1 * 1 + 0) with 5 by field. reflexivity.
Qed.

(** ** C50 *)
Theorem C50_one_body_invariant : forall kernel logabs ions s x, renumbering (length x) s ->
  one_body_exp_decay kernel logabs (displacements (reorder s x) ions) = one_body_exp_decay kernel logabs (displacements x ions).
Proof.
  intros k b ions s x H. rewrite displacements_ion. apply one_body_invariant. unfold displacements. rewrite map_length. exact H.
Qed.
Print Assumptions C50_one_body_invariant.
(** The two-body Jastrow factor is  ee * sum over pairs of electrons of their distance
    - sum over electrons and ions of strength * distance + scale. *)
Theorem C50_two_body_formula : forall ions q ee c x,
  two_body_exp_decay (map Fin q) (Fin ee) (Fin c) true (displacements (fin2 x) (fin2 ions)) (displacements (fin2 x) (fin2 x)) =
  Fin (ee * pair_total edist x - lsum (map (fun a => lsum (map (fun p => snd p * edist a (fst p)) (combine ions q))) x) + c) /\
  two_body_exp_decay (map Fin q) (Fin ee) (Fin c) false (displacements (fin2 x) (fin2 ions)) (displacements (fin2 x) (fin2 x)) =
  Fin (exp (ee * pair_total edist x - lsum (map (fun a => lsum (map (fun p => snd p * edist a (fst p)) (combine ions q))) x) + c)).
Proof. intros ions q ee c x. split; [exact (two_body_real ions q ee c true x)|exact (two_body_real ions q ee c false x)]. Qed.
Print Assumptions C50_two_body_formula.
Theorem C50_two_body_invariant : forall ions q ee c logabs x x', Permutation x x' ->
  two_body_exp_decay (map Fin q) (Fin ee) (Fin c) logabs (displacements (fin2 x) (fin2 ions)) (displacements (fin2 x) (fin2 x)) =
  two_body_exp_decay (map Fin q) (Fin ee) (Fin c) logabs (displacements (fin2 x') (fin2 ions)) (displacements (fin2 x') (fin2 x')).
Proof. intros ions q ee c logabs x x' P. rewrite !two_body_real. cbv zeta. rewrite (two_body_perm ions q ee c x x' P). reflexivity. Qed.
Print Assumptions C50_two_body_invariant.
Theorem C50_backflow_jastrow_invariant : forall bf logabs sizes s x y z d d2,
  match bf with Some bs => Forall (fun b => describes (l1_split (b_one b)) sizes) bs | None => True end ->
  keeps_spins sizes s -> (0 < list_sum sizes)%nat ->
  shape2 (list_sum sizes) d x -> shape3 (list_sum sizes) (list_sum sizes) d2 y -> length z = list_sum sizes ->
  backflow_jastrow bf logabs (reorder s x) (Some (reorder2 s y)) (reorder s z) = backflow_jastrow bf logabs x (Some y) z /\
  backflow_jastrow bf logabs (reorder s x) None (reorder s z) = backflow_jastrow bf logabs x None z.
Proof.
  intros bf logabs sizes s x y z d d2 B K N Sx Sy Lz. split.
  - exact (backflow_jastrow_invariant bf logabs sizes s x (Some y) z d d2 B K N Sx Sy Lz).
  - exact (backflow_jastrow_invariant bf logabs sizes s x None z d d2 B K N Sx I Lz).
Qed.
Print Assumptions C50_backflow_jastrow_invariant.
(** Z_j electrons on every ion j, listed in any order. *)
Theorem C50_chargeless_value : forall ions Z ee x, length ions = length Z -> Permutation x (electrons_at_ions ions Z) ->
  two_body_decay_chargeless (fin2 ions) (map Fin (map INR Z)) (Fin ee) true (displacements (fin2 x) (fin2 ions)) (displacements (fin2 x) (fin2 x)) =
  Fin ((ee - 1) * pair_total edist x).
Proof.
  intros ions Z ee x L P. unfold two_body_decay_chargeless. rewrite (scale_factor_real ions Z L).
  rewrite two_body_real. cbv zeta. f_equal. rewrite (two_body_perm _ _ _ _ _ _ P).
  rewrite !(pair_total_half edist _ edist_sym edist_refl), (all_total_perm edist _ _ P).
  destruct (at_ions_values ions Z) as (-> & ->). lra.
Qed.
Print Assumptions C50_chargeless_value.
Corollary C50_chargeless_zero : forall ions Z x, length ions = length Z -> Permutation x (electrons_at_ions ions Z) ->
  two_body_decay_chargeless (fin2 ions) (map Fin (map INR Z)) (Fin 1) true (displacements (fin2 x) (fin2 ions)) (displacements (fin2 x) (fin2 x)) = Fin 0.
Proof. intros ions Z x L P. rewrite (C50_chargeless_value ions Z 1 x L P). f_equal. ring. Qed.
Print Assumptions C50_chargeless_zero.
(** Documented for every strength; false for the strength 2 (hydrogen molecule, ions 1 apart). *)
Theorem C50_chargeless_other_strength_refuted :
  ~ (forall ions Z ee x, length ions = length Z -> Permutation x (electrons_at_ions ions Z) ->
     two_body_decay_chargeless (fin2 ions) (map Fin (map INR Z)) (Fin ee) true (displacements (fin2 x) (fin2 ions)) (displacements (fin2 x) (fin2 x)) = Fin 0).
Proof.
  intros H. specialize (H [[0]; [1]] [1; 1]%nat 2 [[0]; [1]] eq_refl (Permutation_refl _)).
  rewrite (C50_chargeless_value [[0]; [1]] [1; 1]%nat 2 [[0]; [1]] eq_refl (Permutation_refl _)) in H. injection H as H.
  cbn in H. unfold edist in H. cbn in H. replace ((0 - 1) * ((0 - 1) * 1) + 0) with 1 in H by ring. rewrite sqrt_1 in H. lra.
Qed.
Print Assumptions C50_chargeless_other_strength_refuted.

(** ** C51 *)
Theorem C51_roundtrip : forall x, array_from_slog (array_to_slog x) = x.
Proof. exact roundtrip. Qed.
Print Assumptions C51_roundtrip.
Theorem C51_product : forall a b, array_from_slog (slog_multiply (array_to_slog (Fin a)) (array_to_slog (Fin b))) = Fin (a * b).
Proof. intros a b. rewrite !to_slog_fin, slog_multiply_of, from_slog_of. reflexivity. Qed.
Print Assumptions C51_product.
Lemma map_to_slog l : map (fun x => array_to_slog (Fin x)) l = map slog_of l.
Proof. apply map_ext. intros x. apply to_slog_fin. Qed.
Theorem C51_sum : forall l, (exists x, In x l /\ x <> 0) ->
  exists r, slog_sum_over_axis (map (fun x => array_to_slog (Fin x)) l) = Some r /\ array_from_slog r = Fin (lsum l) /\ r = array_to_slog (Fin (lsum l)).
Proof.
  intros l H. exists (slog_of (lsum l)). rewrite map_to_slog. split; [apply log_linear_exp_of; exact H|]. split; [apply from_slog_of|symmetry; apply to_slog_fin].
Qed.
Print Assumptions C51_sum.
Theorem C51_weighted_sums : forall w features l, (exists x, In x l /\ x <> 0) ->
  exists r, log_linear_exp_weights (fun i f => Fin (w i f)) features (map (fun x => array_to_slog (Fin x)) l) = Some r /\
            map array_from_slog r = map (fun f => Fin (Rsum (length l) (fun i => nth i l 0 * w i f))) (seq 0 features).
Proof.
  intros w features l H. rewrite map_to_slog, (log_linear_exp_weights_of w features l H). eexists. split; [reflexivity|]. rewrite map_map. apply map_ext. intros f.
  apply from_slog_of.
Qed.
Print Assumptions C51_weighted_sums.
(** "The sum of all-zero inputs is zero" is false: it is NaN (sign and log), for the plain sum
    and for every weighted sum; and an empty list raises. *)
Theorem C51_all_zero_refuted : forall l, l <> [] -> (forall x, In x l -> x = 0) ->
  slog_sum_over_axis (map (fun x => array_to_slog (Fin x)) l) = Some (NaN, NaN) /\
  forall w features, log_linear_exp_weights (fun i f => Fin (w i f)) features (map (fun x => array_to_slog (Fin x)) l) = Some (repeat (NaN, NaN) features).
Proof.
  intros l N Z. rewrite map_to_slog. split; [apply log_linear_exp_zeros; assumption|]. intros w f. rewrite (log_linear_exp_weights_zeros (fun i f => Fin (w i f)) f l N Z).
  f_equal. apply map_const_seq.
Qed.
Print Assumptions C51_all_zero_refuted.
Example C51_example : exists r, slog_sum_over_axis (map (fun x => array_to_slog (Fin x)) [2; 0; - (5)]) = Some r /\ array_from_slog r = Fin (- (3)).
Proof.
  destruct (C51_sum [2; 0; - (5)]) as (r & E & V & _); [exists 2; split; [left; reflexivity|lra]|]. exists r. split; [exact E|]. rewrite V. cbn. f_equal. lra.
Qed.

(** ** C52 *)
Theorem C52_dense_with_bias : forall features w l,
  exists r, log_domain_dense features (fun i f => Fin (w i f)) true (map (fun x => array_to_slog (Fin x)) l) = Some r /\
            map array_from_slog r = dense features (fun i f => Fin (w i f)) (Some (fun f => Fin (w (length l) f))) (map Fin l).
Proof.
  intros features w l. rewrite map_to_slog, log_dense_bias. eexists. split; [reflexivity|]. rewrite map_map. rewrite <- map_id. apply map_ext. intros x. apply roundtrip.
Qed.
Print Assumptions C52_dense_with_bias.
Theorem C52_dense_without_bias : forall features w l, (exists x, In x l /\ x <> 0) ->
  exists r, log_domain_dense features (fun i f => Fin (w i f)) false (map (fun x => array_to_slog (Fin x)) l) = Some r /\
            map array_from_slog r = dense features (fun i f => Fin (w i f)) None (map Fin l).
Proof.
  intros features w l H. rewrite map_to_slog, (log_dense_nobias features w l H). eexists. split; [reflexivity|]. rewrite map_map. rewrite <- map_id. apply map_ext. intros x. apply roundtrip.
Qed.
Print Assumptions C52_dense_without_bias.
(** Whole residual networks of every depth: the log-domain network represents the ordinary
    one with the same weights (both compute the real network), if no zero sums occur. *)
Theorem C52_resnet : forall nd nf act xact ract ws wf x,
  (forall v, act (array_to_slog (Fin v)) = array_to_slog (Fin (ract v))) -> (forall v, xact (Fin v) = Fin (ract v)) ->
  no_zero_sums nd ract ws x ->
  exists r, log_domain_resnet nd nf act true (map (fun w i f => Fin (w i f)) ws) (fun i f => Fin (wf i f)) (map (fun v => array_to_slog (Fin v)) x) = Some r /\
    map array_from_slog r = simple_resnet nd nf xact (with_bias nd (length x) ws) (fun i f => Fin (wf i f)) (map Fin x) /\
    map array_from_slog r = map Fin (real_net nd nf ract ws wf x).
Proof.
  intros nd nf act xact ract ws wf x A XA H. rewrite map_to_slog. rewrite (log_net_of nd nf act ract wf); [|intros v; rewrite <- !to_slog_fin; apply A|exact H].
  eexists. split; [reflexivity|]. rewrite (net_fin nd nf xact ract wf XA ws x). rewrite map_map. rewrite (map_ext _ Fin) by (intros v; apply from_slog_of). split; reflexivity.
Qed.
Print Assumptions C52_resnet.
Example C52_example : no_zero_sums 2 (fun v => v) [fun _ _ => 1; fun i f => INR (i + f)] [1; 2] /\
  no_zero_sums 2 (fun v => v) [fun _ _ => 1] [3].
Proof.
  split.
  - split; [intros _ [|[|k]] Hk; try lia; right; cbn; lra|]. split; [intros _ [|[|k]] Hk; try lia; right; cbn; lra|].
    cbn. eexists. split; [left; reflexivity|]. lra.
  - split; [intros E; discriminate|]. cbn. eexists. split; [left; reflexivity|]. lra.
Qed.
(** The excluded case is really wrong: a skip connection adding two zeros gives NaN, not 0. *)
Theorem C52_zero_skip_refuted : slog_sum (array_to_slog (Fin 0)) (array_to_slog (Fin 0)) = Some (NaN, NaN).
Proof. rewrite !to_slog_fin. apply slog_sum_zeros. Qed.
Print Assumptions C52_zero_skip_refuted.

(** ** C54 *)
Theorem C54_shapes : forall o n d m x ions, shape2 n d x -> shape2 m d ions -> so_ion_pos o = Some ions -> so_ei_norm o = true ->
  exists rows i2 r_ei r_ee, compute_input_streams o x = (Rows rows, i2, Some r_ei, r_ee) /\ shape2 n (m * (d + 1)) rows /\ shape3 n m d r_ei /\
    (if so_2e o then exists a b, i2 = Some a /\ r_ee = Some b /\ shape3 n n (if so_ee_norm o then d + 1 else d)%nat a /\ shape3 n n d b else i2 = None /\ r_ee = None).
Proof.
  intros o n d m x ions Sx Si E1 E2. unfold compute_input_streams. rewrite E1, E2. destruct (ei_shape n m d x ions (so_ei_soft o) Sx Si) as (r & E & Sr). rewrite E.
  pose proof (displacements_shape n m d x ions Sx Si) as Sd.
  destruct (so_2e o); [|exists r; do 3 eexists; split; [reflexivity|]; repeat split; try reflexivity; apply Sr || apply Sd].
  pose proof (ee_shape n d x (so_ee_norm o) (so_ee_soft o) Sx) as S2.
  assert (S3 : snd (compute_electron_electron x (so_ee_norm o) (so_ee_soft o)) = displacements x x) by (unfold compute_electron_electron; cbv zeta; destruct (so_ee_norm o); reflexivity).
  destruct (compute_electron_electron x (so_ee_norm o) (so_ee_soft o)) as (a, b). cbn [fst snd] in S2, S3. subst b.
  exists r; do 3 eexists; split; [reflexivity|]. split; [exact Sr|]. split; [exact Sd|]. eexists; eexists. split; [reflexivity|]. split; [reflexivity|].
  split; [exact S2|exact (displacements_shape n n d x x Sx Sx)].
Qed.
Print Assumptions C54_shapes.
Theorem C54_without_ions : forall o x, so_ion_pos o = None -> exists i2 r_ee, compute_input_streams o x = (Rows x, i2, None, r_ee).
Proof.
  intros o x E. unfold compute_input_streams. rewrite E. cbn. destruct (so_2e o); [destruct (compute_electron_electron x (so_ee_norm o) (so_ee_soft o))|]; eexists; eexists; reflexivity.
Qed.
Print Assumptions C54_without_ions.
(** The full statement is false: without the ion norm the stream is never flattened. *)
Theorem C54_without_norm_refuted : forall o x ions, so_ion_pos o = Some ions -> so_ei_norm o = false ->
  exists i2 r_ee, compute_input_streams o x = (Unflattened (displacements x ions), i2, Some (displacements x ions), r_ee).
Proof.
  intros o x ions E1 E2. unfold compute_input_streams. rewrite E1, E2. cbn.
  destruct (so_2e o); [destruct (compute_electron_electron x (so_ee_norm o) (so_ee_soft o))|]; eexists; eexists; reflexivity.
Qed.
Print Assumptions C54_without_norm_refuted.
Example C54_example : shape2 2 3 [[Fin 0; Fin 1; Fin 2]; [Fin 1; Fin 1; Fin 1]] /\ shape2 1 3 [[Fin 0; Fin 0; Fin 0]].
Proof. split; split; try reflexivity; repeat constructor. Qed.

(** ** C55 *)
(** For an electron of spin block b the mixed features are the block averages in the order
    b, b+1, ..., k-1, 0, ..., b-1. *)
Theorem C55_own_average_first : forall p sizes x, l1_cyclic p = true -> l1_attention p = None -> l1_skip p = false ->
  describes (l1_split p) sizes -> length x = list_sum sizes ->
  forall i, (i < length x)%nat ->
  nth i (one_electron_layer p x None) [] =
  map (l1_act p)
    (zipw xadd (dense (l1_ndense p) (l1_unmixed p) (l1_bias p) (nth i x []))
               (dense (l1_ndense p) (l1_mixed p) None
                  (concat (map (fun b => vmean (width x) (nth b (cut sizes x) [])) (cyclic_from (length sizes) (spin_of sizes i)))))).
Proof.
  intros p sizes x C A S D L i Hi. rewrite L in Hi. rewrite (one_electron_rows p sizes x None D L I), nth_map_seq by exact Hi.
  unfold layer_row, mix_row, mixed_term, vadd. rewrite A, C, S. cbn [andb]. do 3 f_equal. f_equal. unfold spin_means.
  rewrite (roll_cyclic _ _ (vmean (width x) [])) by (rewrite map_length, cut_length; apply spin_of_lt; exact Hi).
  rewrite map_length, cut_length. apply map_ext. intros b. apply map_nth.
Qed.
Print Assumptions C55_own_average_first.
(** What "average" means on real features. *)
Theorem C55_average : forall d blk, blk <> [] -> vmean d (fin2 blk) = map Fin (block_average d blk).
Proof.
  intros d blk N. unfold vmean, block_average, fin2. rewrite map_map, map_length. apply map_ext. intros c. rewrite map_map.
  rewrite (map_ext (fun r => nth c (map Fin r) (Fin 0)) (fun r => Fin (nth c r 0))) by (intros r; apply (map_nth Fin)).
  rewrite <- (map_map (fun r => nth c r 0) Fin), xsum_fin. unfold xdiv. destruct (Req_EM_T (INR (length blk)) 0) as [E|E]; [|reflexivity].
  exfalso. destruct blk; [congruence|]. cbn [length] in E. rewrite S_INR in E. pose proof (pos_INR (length blk)). lra.
Qed.
Print Assumptions C55_average.
(** Relabelling the spin blocks cyclically relabels the output, also with a two-electron
    stream, skip connections and attention. *)
Theorem C55_cyclic_relabelling : forall p sizes sp' r x y d d2, l1_cyclic p = true -> describes (l1_split p) sizes -> describes sp' (rotate_blocks r sizes) ->
  (r < length sizes)%nat -> (0 < list_sum sizes)%nat -> shape2 (list_sum sizes) d x -> shape3 (list_sum sizes) (list_sum sizes) d2 y ->
  let s := rotation (list_sum sizes) (list_sum (firstn r sizes)) in
  one_electron_layer (with_split sp' p) (reorder s x) (Some (reorder2 s y)) = reorder s (one_electron_layer p x (Some y)) /\
  one_electron_layer (with_split sp' p) (reorder s x) None = reorder s (one_electron_layer p x None).
Proof.
  intros p sizes sp' r x y d d2 C D D' Hr N Sx Sy. split.
  - exact (cyclic_relabel p sizes sp' r x (Some y) d d2 C D D' Hr N Sx Sy).
  - exact (cyclic_relabel p sizes sp' r x None d d2 C D D' Hr N Sx I).
Qed.
Print Assumptions C55_cyclic_relabelling.
Example C55_example : describes (l1_split C43_layer) [2; 1]%nat /\ describes (At [1%nat]) (rotate_blocks 1 [2; 1]%nat) /\ l1_cyclic C43_layer = true /\
  reorder (rotation 3 2) [10; 20; 30]%nat = [30; 10; 20]%nat /\ cyclic_from 3 1 = [1; 2; 0]%nat.
Proof. repeat split; try discriminate; right; reflexivity. Qed.
