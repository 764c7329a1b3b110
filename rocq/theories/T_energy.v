(** * Properties C27-C32: distribution over devices, energy statistics, clipping, energy gradient *)
From Coq Require Import Reals String List Arith Bool Lra Lia Permutation.
From Coquelicot Require Import Coquelicot.
From Verif Require Import P_xsum.
From Verif Require Import XReal Rsum M_mcmc M_distribute M_energy S_energy P_distribute P_stats P_energy P_grad P_unbiased.
Import ListNotations.
Local Open Scope R_scope.

Ltac xnum H := simpl in H; repeat (match type of H with context [Req_EM_T ?a ?b] => destruct (Req_EM_T a b); [exfalso; lra|]; simpl in H end).
Ltac xnumg := simpl; repeat (match goal with |- context [Req_EM_T ?a ?b] => destruct (Req_EM_T a b); [exfalso; lra|]; simpl end).

(** ** C27 *)
Theorem C27_distribute : forall (A : Type) ndev (leaf : list A), (0 < ndev)%nat ->
  match reshape_data_leaves_for_distribution ndev leaf with
  | Some shards =>
      Nat.divide ndev (length leaf) /\ concat shards = leaf /\ length shards = ndev /\
      (forall s, In s shards -> (length s * ndev)%nat = length leaf) /\
      (forall d i a, (d < ndev)%nat -> (i < length leaf / ndev)%nat ->
         nth i (nth d shards []) a = nth (d * (length leaf / ndev) + i) leaf a)
  | None => ~ Nat.divide ndev (length leaf)
  end.
Proof.
  intros A ndev leaf Hn. unfold reshape_data_leaves_for_distribution.
  destruct (Nat.eqb_spec (length leaf mod ndev) 0) as [E|E].
  - pose proof (reshape_some ndev leaf Hn E) as HL. split; [exists (length leaf / ndev)%nat; exact HL|].
    split; [apply chunks_concat; exact HL|]. split; [apply chunks_length|]. split.
    + intros s Hs. rewrite (chunks_sizes _ _ _ HL s Hs). symmetry. exact HL.
    + intros; apply chunks_nth; assumption.
  - intros HD. apply E. apply Nat.mod_divide; [lia|assumption].
Qed.
Print Assumptions C27_distribute.

(** All leaves of a data tree: rejected as soon as one leaf has a bad size. *)
Theorem C27_distribute_tree : forall (A : Type) ndev (leaves : list (list A)), (0 < ndev)%nat ->
  match default_distribute_data ndev leaves with
  | Some ds => map (@concat A) ds = leaves /\ forall d, In d ds -> length d = ndev
  | None => exists leaf, In leaf leaves /\ ~ Nat.divide ndev (length leaf)
  end.
Proof.
  intros A ndev leaves Hn. unfold default_distribute_data. induction leaves as [|leaf leaves IH]; [simpl; tauto|]. cbn [mapM].
  pose proof (C27_distribute A ndev leaf Hn) as HL.
  destruct (reshape_data_leaves_for_distribution ndev leaf) as [s|]; [|exists leaf; split; [left; reflexivity|assumption]].
  destruct (mapM _ leaves) as [ds|].
  - destruct IH as [I1 I2]. destruct HL as (_ & H1 & H2 & _). split; [simpl; congruence|].
    intros d [<-|Hd]; auto.
  - destruct IH as (l & Hin & Hl). exists l. split; [right; assumption|assumption].
Qed.
Print Assumptions C27_distribute_tree.

(** Replicating and taking the first copy is the identity, and a distributed state survives being stored
    (one copy of parameters and optimizer state, data and keys per device) and put back. *)
Theorem C27_replicate_and_restore : forall (D P S K : Type) ndev (d : list D) (p : P) (s : S) (k : list K), (0 < ndev)%nat ->
  get_first (replicate_all_local_devices ndev p) = Some p /\
  (length d = ndev -> length k = ndev ->
   let st := (d, replicate_all_local_devices ndev p, replicate_all_local_devices ndev s, k) in
   exists d' p' s' k', checkpoint_of st = Some (d', p', s', k') /\
     distribute_vmc_state_from_checkpoint ndev d' p' s' k' = Some st).
Proof.
  intros D P S K ndev d p s k Hn. destruct ndev as [|n]; [lia|]. split; [reflexivity|].
  intros Hd Hk st. exists d, p, s, k. split; [reflexivity|].
  unfold distribute_vmc_state_from_checkpoint, broadcast_all_local_devices. rewrite Hd, Hk, Nat.leb_refl. reflexivity.
Qed.
Print Assumptions C27_replicate_and_restore.

Example C27_example : reshape_data_leaves_for_distribution 2 [1; 2; 3; 4; 5; 6]%nat = Some [[1; 2; 3]; [4; 5; 6]]%nat /\
  reshape_data_leaves_for_distribution 4 [1; 2; 3; 4; 5; 6]%nat = None.
Proof. split; reflexivity. Qed.

(** ** C28 *)
(** Averages of finite data are global averages, with and without NaN-safety. *)
Theorem C28_mean_of_means : forall nan_safe (shards : list (list R)), evenly shards ->
  mean_over_first_axis nan_safe (map (map Fin) shards) = Fin (lmean (concat shards)).
Proof. exact means_fin. Qed.
Print Assumptions C28_mean_of_means.

(** The NaN-safe average over devices is the NaN-safe average of all walkers if every device has the
    same (positive) number of non-NaN values. *)
Theorem C28_nanmean_even : forall k (shards : list (list xr)), (0 < k)%nat -> shards <> [] ->
  (forall s v, In s shards -> In v s -> v = NaN \/ exists r, v = Fin r) ->
  (forall s, In s shards -> length (filter (fun v => negb (isnan v)) s) = k) ->
  nanmean_all_local_devices shards = xnanmean (concat shards).
Proof. exact nanmean_even. Qed.
Print Assumptions C28_nanmean_even.

(** In general it is not; and one device without any number turns the average into NaN. *)
Theorem C28_nanmean_sharding_refuted :
  ~ (forall shards : list (list xr), evenly shards -> nanmean_all_local_devices shards = xnanmean (concat shards)) /\
  (forall (shards : list (list xr)) s, In s shards -> (forall v, In v s -> v = NaN) -> nanmean_all_local_devices shards = NaN).
Proof.
  split.
  - intros H. specialize (H [[Fin 0; NaN]; [Fin 3; Fin 3]]).
    assert (E : evenly [[Fin 0; NaN]; [Fin 3; Fin 3]]).
    { exists 2%nat. split; [lia|]. split; [discriminate|]. intros s [<-|[<-|[]]]; reflexivity. }
    specialize (H E). unfold nanmean_all_local_devices, xnanmean, xmean in H. simpl in H.
    xnum H. injection H. intros. lra.
  - intros shards s Hs Hv. unfold nanmean_all_local_devices. apply xmean_nan. apply in_map_iff. exists s.
    split; [apply xnanmean_all_nan|]; assumption.
Qed.
Print Assumptions C28_nanmean_sharding_refuted.

Example C28_example : evenly [[1; 2]; [3; 4]] /\ lmean (concat [[1; 2]; [3; 4]]) = 5 / 2 /\
  nanmean_all_local_devices [[Fin 1; NaN]; [NaN; Fin 4]] = Fin (5 / 2).
Proof.
  split; [exists 2%nat; split; [lia|]; split; [discriminate|]; intros s [<-|[<-|[]]]; reflexivity|].
  split; [unfold lmean, lsum; simpl; field|].
  rewrite (C28_nanmean_even 1); [|lia|discriminate| |].
  - unfold xnanmean, xmean. xnumg. f_equal. field.
  - intros s v [<-|[<-|[]]] [<-|[<-|[]]]; eauto.
  - intros s [<-|[<-|[]]]; reflexivity.
Qed.

(** ** C29 *)
(** Clipping finite energies on one device: every energy is replaced by the closest value of the window
    [threshold * mean distance] around the centre (the given mean, or a median of the energies). *)
Theorem C29_clipping_window : forall threshold (l : list R) e, 0 <= threshold -> l <> [] ->
  forall centre_name, centre_name = "mean"%string \/ centre_name = "median"%string ->
  exists c l', total_variation_clipping_fn threshold centre_name (map Fin l) (Fin e) = Some (map Fin l') /\
    (centre_name = "mean"%string -> c = e) /\ (centre_name = "median"%string -> is_median c l) /\
    length l' = length l /\
    let w := threshold * mean_distance c l in
    (forall i, (i < length l)%nat -> closest_within c w (nth i l 0) (nth i l' 0)) /\
    (forall i, (i < length l)%nat -> Rabs (nth i l 0 - c) <= w -> nth i l' 0 = nth i l 0) /\
    (forall i j, (i < length l)%nat -> (j < length l)%nat -> nth i l 0 <= nth j l 0 -> nth i l' 0 <= nth j l' 0) /\
    Rabs (lmean l' - c) <= w /\
    (INR (length l) <= threshold -> l' = l).
Proof.
  intros th l e Ht Hl cc Hcc.
  assert (OK : centre_ok cc = true) by (destruct Hcc as [->| ->]; reflexivity).
  exists (centre_of cc e l), (clip_list (centre_of cc e l) (th * mean_distance (centre_of cc e l) l) l).
  split; [apply clip_fn_fin; assumption|]. split; [intros ->; reflexivity|].
  split; [intros ->; apply rmedian_is_median; assumption|]. split; [apply map_length|].
  set (c := centre_of cc e l). cbv zeta. set (w := th * mean_distance c l).
  assert (Hw : 0 <= w) by (apply Rmult_le_pos; [assumption|apply mean_distance_nonneg]).
  assert (N : forall i, (i < length l)%nat -> nth i (clip_list c w l) 0 = rclip (nth i l 0) (c - w) (c + w)).
  { intros i Hi. unfold clip_list. rewrite (nth_indep _ 0 (rclip 0 (c - w) (c + w))) by (rewrite map_length; assumption).
    apply (map_nth (fun e => rclip e (c - w) (c + w))). }
  split; [intros i Hi; rewrite N by assumption; apply rclip_closest; assumption|].
  split; [intros i Hi H; rewrite N by assumption; apply rclip_inside; assumption|].
  split; [intros i j Hi Hj H; rewrite !N by assumption; apply rclip_mono; assumption|].
  split.
  - apply lmean_dev; [destruct l; [congruence|discriminate]|]. intros x Hx. apply in_map_iff in Hx. destruct Hx as (y & <- & _).
    apply rclip_closest. assumption.
  - intros HN. apply clip_list_big. intros x Hx. eapply Rle_trans; [apply distance_le_sum; exact Hx|].
    apply Rmult_le_compat_r; [apply mean_distance_nonneg|exact HN].
Qed.
Print Assumptions C29_clipping_window.

(** Clipping again with the same window changes nothing. *)
Theorem C29_idempotent : forall c w e e', closest_within c w e e' -> forall e'', closest_within c w e' e'' -> e'' = e'.
Proof.
  intros c w e e' [H1 _] e'' [_ H2]. specialize (H2 e' H1). replace (e' - e') with 0 in H2 by ring. rewrite Rabs_R0 in H2.
  pose proof (Rabs_pos (e' - e'')). destruct (Req_dec (e' - e'') 0) as [Y|Y]; [lra|]. apply Rabs_no_R0 in Y. lra.
Qed.
Print Assumptions C29_idempotent.

(** A threshold of zero (or less) switches clipping off, an unknown centre is an error. *)
Theorem C29_configuration : forall threshold centre_name,
  (threshold <= 0 -> get_clipping_fn threshold centre_name = None) /\
  (0 < threshold -> get_clipping_fn threshold centre_name = Some (total_variation_clipping_fn threshold centre_name)) /\
  (centre_name <> "mean"%string -> centre_name <> "median"%string -> forall l e, total_variation_clipping_fn threshold centre_name l e = None).
Proof.
  intros th cc. unfold get_clipping_fn. split; [|split].
  - intros H. apply Rltb_false in H. rewrite H. reflexivity.
  - intros H. apply Rltb_true in H. rewrite H. reflexivity.
  - intros H1 H2 l e. unfold total_variation_clipping_fn. apply String.eqb_neq in H1, H2. rewrite H1, H2. reflexivity.
Qed.
Print Assumptions C29_configuration.

(** One NaN energy anywhere, mean centre: every clipped energy on every device, the energy and the
    variance become NaN, although averaging is NaN-safe. *)
Theorem C29_mean_centre_spreads_nan : forall threshold (shards : list (list xr)) nchains nan_safe s,
  0 < threshold -> In s shards -> In NaN s -> (forall s, In s shards -> s <> []) ->
  exists les aux, get_clipped_energies_and_aux_data shards nchains (get_clipping_fn threshold "mean") nan_safe = Some (NaN, les, aux) /\
    variance aux = NaN /\ length les = length shards /\ (forall l v, In l les -> In v l -> v = NaN) /\
    (forall l v, In l (centered aux) -> In v l -> v = NaN).
Proof.
  intros th shards n b s Ht Hs Hnan Hne.
  unfold get_clipped_energies_and_aux_data. rewrite (stats_nan shards s) by assumption.
  rewrite (proj1 (proj2 (C29_configuration th "mean")) Ht).
  set (go := fun shard : list xr => map (fun _ => NaN) shard).
  assert (E : mapM (fun shard => total_variation_clipping_fn th "mean" shard NaN) shards = Some (map go shards)).
  { clear. induction shards as [|s ss IH]; [reflexivity|]. cbn [mapM map]. rewrite IH. unfold total_variation_clipping_fn at 1. simpl.
    unfold go at 1. do 2 f_equal. apply map_ext. intros v. apply xclip_nan_lo. }
  rewrite E. rewrite stats_all_nan.
  - eexists _, _. split; [reflexivity|]. cbn [variance centered]. split; [reflexivity|]. split; [apply map_length|]. split.
    + intros l v Hl Hv. apply in_map_iff in Hl. destruct Hl as (s' & <- & _). apply in_map_iff in Hv. destruct Hv as (? & <- & _). reflexivity.
    + intros l v Hl Hv. apply in_map_iff in Hl. destruct Hl as (s' & <- & _). apply in_map_iff in Hv. destruct Hv as (? & <- & _).
      unfold xsub. rewrite xadd_nan_r. reflexivity.
  - destruct shards; [contradiction|discriminate].
  - intros l Hl. apply in_map_iff in Hl. destruct Hl as (s' & <- & Hin). specialize (Hne s' Hin). split.
    + destruct s'; [congruence|discriminate].
    + intros v Hv. apply in_map_iff in Hv. destruct Hv as (? & <- & _). reflexivity.
Qed.
Print Assumptions C29_mean_centre_spreads_nan.

(** Median centre: NaNs stay where they are, all other energies on the device are clipped as if the
    NaNs were not there. *)
Theorem C29_median_centre_contains_nan : forall threshold (s : list xr) (l : list R) e, 0 <= threshold -> l <> [] ->
  (forall v, In v s -> v = NaN \/ exists r, v = Fin r) -> filter (fun v => negb (isnan v)) s = map Fin l ->
  exists c s', total_variation_clipping_fn threshold "median" s e = Some s' /\ is_median c l /\ length s' = length s /\
    (forall i, (i < length s)%nat -> nth i s NaN = NaN -> nth i s' NaN = NaN) /\
    (forall i x, (i < length s)%nat -> nth i s NaN = Fin x ->
       exists x', nth i s' NaN = Fin x' /\ closest_within c (threshold * mean_distance c l) x x').
Proof.
  intros th s l e Ht Hl Hv HF. set (w := th * mean_distance (rmedian l) l).
  set (f := fun v => match v with Fin e => Fin (rclip e (rmedian l - w) (rmedian l + w)) | _ => NaN end).
  exists (rmedian l), (map f s). split; [apply (clip_median_nan th s l e Hl Hv HF)|].
  split; [apply rmedian_is_median; assumption|]. split; [apply map_length|].
  assert (N : forall i, nth i (map f s) NaN = f (nth i s NaN)) by (intros i; exact (map_nth f s NaN i)).
  split; [intros i _ H; rewrite N, H; reflexivity|]. intros i x _ H. rewrite N, H. eexists. split; [reflexivity|].
  apply rclip_closest. apply Rmult_le_pos; [assumption|apply mean_distance_nonneg].
Qed.
Print Assumptions C29_median_centre_contains_nan.

(** The window is computed per device: clipped energies depend on how walkers are spread over devices. *)
Theorem C29_sharding_independence_refuted : ~ forall threshold (shards shards' : list (list R)) n b e les aux e' les' aux',
  0 < threshold -> evenly shards -> evenly shards' -> concat shards = concat shards' -> n = length (concat shards) ->
  get_clipped_energies_and_aux_data (map (map Fin) shards) n (get_clipping_fn threshold "mean") b = Some (e, les, aux) ->
  get_clipped_energies_and_aux_data (map (map Fin) shards') n (get_clipping_fn threshold "mean") b = Some (e', les', aux') ->
  concat les = concat les'.
Proof.
  intros H.
  set (s1 := [[- (1); 1; - (9); 9]]). set (s2 := [[- (1); 1]; [- (9); 9]]).
  assert (E1 : evenly s1) by (exists 4%nat; split; [lia|]; split; [discriminate|]; intros s [<-|[]]; reflexivity).
  assert (E2 : evenly s2) by (exists 2%nat; split; [lia|]; split; [discriminate|]; intros s [<-|[<-|[]]]; reflexivity).
  assert (M1 : lmean (concat s1) = 0) by (unfold lmean, lsum; simpl; field).
  assert (M2 : lmean (concat s2) = 0) by (unfold lmean, lsum; simpl; field).
  assert (C : forall l, l <> [] -> clips (get_clipping_fn (3 / 2) "mean") 0 l (clip_list 0 (3 / 2 * mean_distance 0 l) l)).
  { intros l Hl. split; [apply map_length|]. rewrite (proj1 (proj2 (C29_configuration (3 / 2) "mean")) ltac:(lra)).
    apply (clip_fn_fin (3 / 2) "mean" l 0 Hl). reflexivity. }
  destruct (clipped_fin (get_clipping_fn (3 / 2) "mean") 4 true s1 (map (fun l => clip_list 0 (3 / 2 * mean_distance 0 l) l) s1) E1 eq_refl ltac:(lia)) as (a1 & G1 & _).
  { rewrite M1. constructor; [apply C; discriminate|constructor]. }
  destruct (clipped_fin (get_clipping_fn (3 / 2) "mean") 4 true s2 (map (fun l => clip_list 0 (3 / 2 * mean_distance 0 l) l) s2) E2 eq_refl ltac:(lia)) as (a2 & G2 & _).
  { rewrite M2. constructor; [apply C; discriminate|constructor; [apply C; discriminate|constructor]]. }
  pose proof (H (3 / 2) s1 s2 4%nat true _ _ _ _ _ _ ltac:(lra) E1 E2 eq_refl eq_refl G1 G2) as X.
  assert (D1 : mean_distance 0 [- (1); 1; - (9); 9] = 5).
  { unfold mean_distance, lmean, lsum. simpl. unfold Rabs. repeat destruct (Rcase_abs _); try (exfalso; lra); field. }
  assert (D3 : mean_distance 0 [- (9); 9] = 9).
  { unfold mean_distance, lmean, lsum. simpl. unfold Rabs. repeat destruct (Rcase_abs _); try (exfalso; lra); field. }
  unfold s1, s2, clip_list in X. simpl in X. rewrite D1, D3 in X. injection X. intros X4 _ _ _.
  revert X4. unfold rclip, Rmin, Rmax. repeat destruct (Rle_dec _ _); lra.
Qed.
Print Assumptions C29_sharding_independence_refuted.

Example C29_example : exists l', total_variation_clipping_fn (1 / 2) "mean" (map Fin [0; 0; 0; 8]) (Fin 2) = Some (map Fin l') /\
  nth 3 l' 0 = 7 / 2 /\ nth 0 l' 0 = 1 / 2.
Proof.
  exists (clip_list 2 (1 / 2 * mean_distance 2 [0; 0; 0; 8]) [0; 0; 0; 8]).
  split; [apply (clip_fn_fin (1 / 2) "mean"); [discriminate|reflexivity]|].
  assert (D : mean_distance 2 [0; 0; 0; 8] = 3).
  { unfold mean_distance, lmean, lsum. simpl. unfold Rabs. repeat destruct (Rcase_abs _); try (exfalso; lra); field. }
  rewrite D. unfold clip_list. simpl. unfold rclip, Rmin, Rmax. split; repeat destruct (Rle_dec _ _); lra.
Qed.

(** ** C30 *)
(** Reported energy and variance of finite local energies: sample mean and unbiased sample variance,
    with and without NaN-safety, on any number of devices. *)
Theorem C30_statistics : forall (shards : list (list R)) n nan_safe, evenly shards -> n = length (concat shards) -> (2 <= n)%nat ->
  let l := concat shards in
  get_statistics_from_local_energy (map (map Fin) shards) n nan_safe = (Fin (lmean l), Fin (lvar l)) /\
  0 <= lvar l /\ (lvar l = 0 <-> forall x y, In x l -> In y l -> x = y) /\
  (forall c, get_statistics_from_local_energy (map (map (fun e => Fin (e + c))) shards) n nan_safe = (Fin (lmean l + c), Fin (lvar l))) /\
  (forall shards' nan_safe', evenly shards' -> Permutation (concat shards') l ->
     get_statistics_from_local_energy (map (map Fin) shards') n nan_safe' =
     get_statistics_from_local_energy (map (map Fin) shards) n nan_safe).
Proof.
  intros shards n b He Hn H2 l.
  assert (HS := stats_fin shards n b He Hn H2). fold l in HS.
  split; [exact HS|]. split; [apply lvar_nonneg; unfold l; lia|]. split; [apply lvar_zero_iff; unfold l; lia|].
  assert (Hl : l <> []) by (apply evenly_concat_nonempty; assumption).
  split.
  - intros c. rewrite <- lmean_shift, <- (lvar_shift l c) by assumption.
    replace (map (map (fun e => Fin (e + c))) shards) with (map (map Fin) (map (map (fun e => e + c)) shards))
      by (rewrite map_map; apply map_ext; intros; rewrite map_map; reflexivity).
    rewrite stats_fin; [rewrite <- concat_map; reflexivity|apply evenly_map; assumption|rewrite <- concat_map, map_length; assumption|assumption].
  - intros shards' b' He' HP. rewrite HS. rewrite stats_fin; [|assumption|rewrite (Permutation_length HP); assumption|assumption].
    rewrite (lmean_perm _ _ HP), (lvar_perm _ _ HP). reflexivity.
Qed.
Print Assumptions C30_statistics.

(** The unclipped metrics: a NaN on any walker makes both NaN, whatever the clipping and the NaN-safety
    setting; finite energies make both numbers. *)
Theorem C30_noclip_metrics : forall (shards : list (list xr)) n clip nan_safe e les aux,
  get_clipped_energies_and_aux_data shards n clip nan_safe = Some (e, les, aux) ->
  (forall s, In s shards -> In NaN s -> energy_noclip aux = NaN /\ variance_noclip aux = NaN) /\
  (forall rs, shards = map (map Fin) rs -> evenly rs -> n = length (concat rs) -> (2 <= n)%nat ->
     energy_noclip aux = Fin (lmean (concat rs)) /\ variance_noclip aux = Fin (lvar (concat rs))).
Proof.
  intros shards n clip b e les aux H. unfold get_clipped_energies_and_aux_data in H.
  destruct (get_statistics_from_local_energy shards n false) as [en vn] eqn:ES.
  destruct (match clip with Some f => _ | None => _ end) as [les'|]; [|discriminate].
  destruct (get_statistics_from_local_energy les' n b) as [e' v']. injection H as <- <- <-. cbn [energy_noclip variance_noclip]. split.
  - intros s Hs Hn. rewrite (stats_nan shards s n Hs Hn) in ES. injection ES as <- <-. split; reflexivity.
  - intros rs -> He Hn H2. rewrite (stats_fin rs n false He Hn H2) in ES. injection ES as <- <-. split; reflexivity.
Qed.
Print Assumptions C30_noclip_metrics.

Example C30_example : get_statistics_from_local_energy [[Fin 1; Fin 2]; [Fin 3; Fin 6]] 4 true = (Fin 3, Fin (14 / 3)).
Proof.
  pose proof (C30_statistics [[1; 2]; [3; 6]] 4 true) as H. destruct H as [H _]; [|reflexivity|lia|].
  - exists 2%nat. split; [lia|]. split; [discriminate|]. intros s [<-|[<-|[]]]; reflexivity.
  - simpl map in H. rewrite H. unfold lvar, lmean, lsum. simpl. do 2 f_equal; field.
Qed.

(** ** C31 *)
(** The gradient, averaged over devices, is twice the sample covariance of the clipped local energies and
    the log-derivatives; the energy and variance reported with it are those of the clipped energies. *)
Theorem C31_gradient_is_covariance : forall (P X K : Type) log_psi dlog_psi local_energy dlocal_energy split_n
    clip nan_safe (p : P) (keys : list K) (pos : list (list X)) (E L : X -> R) (D : X -> nat -> R) (es' : list (list R)),
  evenly pos -> (2 <= length (concat pos))%nat ->
  (forall x, In x (concat pos) -> local_energy p x None = Fin (E x)) ->
  (forall x, In x (concat pos) -> log_psi p x = Fin (L x)) ->
  (forall x j, In x (concat pos) -> dlog_psi p x j = Fin (D x j)) ->
  Forall2 (clips clip (lmean (map E (concat pos)))) (map (map E) pos) es' ->
  exists aux g, energy_val_and_grad log_psi dlog_psi local_energy dlocal_energy (length (concat pos)) clip nan_safe split_n
      "standard" p keys pos = Ok (aux, Fin (lmean (concat es')), g) /\
    variance aux = Fin (lvar (concat es')) /\
    forall j, grad_mean (g j) = Fin (2 * lcov (concat es') (map (fun x => D x j) (concat pos))).
Proof.
  intros P X K log_psi dlog_psi le dle split_n clip b p keys pos E L D es' He H2 HE HL HD HC.
  unfold energy_val_and_grad. cbn [String.eqb Ascii.eqb Bool.eqb].
  assert (EQ : map (map (fun x => le p x None)) pos = map (map Fin) (map (map E) pos)).
  { rewrite map_map. apply map_ext_in. intros s Hs. rewrite map_map. apply map_ext_in. intros x Hx. apply HE. apply in_concat; eauto. }
  simpl. rewrite EQ.
  destruct (standard_contribution_fin log_psi dlog_psi p pos L D HL HD clip (length (concat pos)) b (map (map E) pos) es') as (aux & g & H1 & H3 & _ & _ & H4).
  - apply evenly_map. assumption.
  - clear. induction pos; simpl; constructor; [apply map_length|assumption].
  - rewrite <- concat_map, map_length. reflexivity.
  - assumption.
  - rewrite <- concat_map. exact HC.
  - exists aux, g. auto.
Qed.
Print Assumptions C31_gradient_is_covariance.

(** It is the derivative of the function that is differentiated: if D x is the derivative of log|psi| in one
    parameter, the covariance is the derivative of the forward value, centred energies held fixed. *)
Theorem C31_gradient_is_derivative : forall (X : Type) n nan_safe (es : list (list R)) (pos : list (list X)) (L : X -> R -> R) (D : X -> R) t0,
  evenly es -> Forall2 (fun e x => length e = length x) es pos -> n = length (concat es) -> (2 <= n)%nat ->
  (forall x, In x (concat pos) -> is_derive (L x) t0 (D x)) ->
  let m := lmean (concat es) in
  exists f : R -> R,
    (forall t, standard_estimator_forward n nan_safe (map (map (fun e => Fin (e - m))) es) (map (map (fun x => Fin (L x t))) pos) = Some (Fin (f t))) /\
    is_derive f t0 (2 * lcov (concat es) (map D (concat pos))).
Proof.
  intros X n b es pos L D t0 He HF Hn H2 HD m.
  exists (fun t => 2 * INR n / (INR n - 1) / INR n * lsum (zipw Rmult (map (fun e => e - m) (concat es)) (map (fun x => L x t) (concat pos)))).
  assert (HFx : Forall2 (fun (c : list R) (x : list X) => length c = length x) (map (map (fun e => e - m)) es) pos).
  { clearbody m. clear - HF. induction HF; simpl; constructor; [rewrite map_length; assumption|assumption]. }
  assert (HLen : length (concat es) = length (concat pos)) by (apply Forall2_lengths; assumption).
  split.
  - intros t. replace (map (map (fun e => Fin (e - m))) es) with (map (map Fin) (map (map (fun e => e - m)) es))
      by (rewrite map_map; apply map_ext; intros; rewrite map_map; reflexivity).
    rewrite (forward_fin n b (map (map (fun e => e - m)) es) pos (fun x => L x t)); [|lia|apply evenly_map; assumption|assumption].
    do 2 f_equal. rewrite <- concat_map. unfold lmean. rewrite zipw_length by (rewrite !map_length; assumption).
    rewrite map_length, <- Hn. apply (le_INR 2) in H2. simpl in H2. field. lra.
  - replace (2 * lcov (concat es) (map D (concat pos))) with
      (2 * INR n / (INR n - 1) / INR n * lsum (zipw Rmult (map (fun e => e - m) (concat es)) (map D (concat pos)))).
    + apply (is_derive_scal (fun t => lsum (zipw Rmult (map (fun e => e - m) (concat es)) (map (fun x => L x t) (concat pos))))).
      apply is_derive_lsum. assumption.
    + rewrite lcov_half by (rewrite ?map_length; lia). fold m. rewrite <- Hn. apply (le_INR 2) in H2. simpl in H2. field. lra.
Qed.
Print Assumptions C31_gradient_is_derivative.

(** Adding a constant to all local energies changes neither the gradient nor the variance, with the
    built-in clipping on or off; equal local energies (an eigenstate) give gradient 0. *)
Theorem C31_shift_and_eigenstate : forall (P X K : Type) log_psi dlog_psi dlocal_energy split_n threshold centre_name
    nan_safe (p : P) (keys : list K) (pos : list (list X)) (E L : X -> R) (D : X -> nat -> R) c,
  evenly pos -> (2 <= length (concat pos))%nat -> centre_name = "mean"%string \/ centre_name = "median"%string ->
  (forall x, In x (concat pos) -> log_psi p x = Fin (L x)) ->
  (forall x j, In x (concat pos) -> dlog_psi p x j = Fin (D x j)) ->
  let run (le : X -> R) := energy_val_and_grad log_psi dlog_psi (fun _ x _ => Fin (le x)) dlocal_energy (length (concat pos))
      (get_clipping_fn threshold centre_name) nan_safe split_n "standard" p keys pos in
  (exists aux e g aux' g', run E = Ok (aux, Fin e, g) /\ run (fun x => E x + c) = Ok (aux', Fin (e + c), g') /\
     variance aux' = variance aux /\ forall j, grad_mean (g' j) = grad_mean (g j)) /\
  (exists aux g, run (fun _ => c) = Ok (aux, Fin c, g) /\ variance aux = Fin 0 /\ forall j, grad_mean (g j) = Fin 0).
Proof.
  intros P X K log_psi dlog_psi dle split_n th cc b p keys pos E L D c He H2 Hcc HL HD run.
  assert (OK : centre_ok cc = true) by (destruct Hcc as [->| ->]; reflexivity).
  set (cl := fun (m : R) (l : list R) => if Rltb 0 th then clip_list (centre_of cc m l) (th * mean_distance (centre_of cc m l) l) l else l).
  assert (HCL : forall m ss, (forall s, In s ss -> s <> []) -> Forall2 (clips (get_clipping_fn th cc) m) ss (map (cl m) ss)).
  { intros m ss. induction ss as [|s ss IH]; intros Hne; simpl; constructor; [|apply IH; intros; apply Hne; right; assumption].
    unfold cl, get_clipping_fn. destruct (Rltb 0 th); [|split; reflexivity]. split; [apply map_length|].
    apply clip_fn_fin; [apply Hne; left; reflexivity|assumption]. }
  assert (Hne : forall (f : X -> R) s, In s (map (map f) pos) -> s <> []).
  { intros f s Hs. apply in_map_iff in Hs. destruct Hs as (x & <- & Hx). destruct He as (k & Hk & _ & HH). specialize (HH x Hx).
    destruct x; [simpl in HH; lia|discriminate]. }
  assert (RR : forall f, exists aux g, run f = Ok (aux, Fin (lmean (concat (map (cl (lmean (map f (concat pos)))) (map (map f) pos)))), g) /\
     variance aux = Fin (lvar (concat (map (cl (lmean (map f (concat pos)))) (map (map f) pos)))) /\
     forall j, grad_mean (g j) = Fin (2 * lcov (concat (map (cl (lmean (map f (concat pos)))) (map (map f) pos))) (map (fun x => D x j) (concat pos)))).
  { intros f. apply (C31_gradient_is_covariance P X K log_psi dlog_psi (fun _ x _ => Fin (f x)) dle split_n (get_clipping_fn th cc) b p keys pos f L D); auto.
    apply HCL, Hne. }
  assert (Hpos : concat pos <> []) by (apply evenly_concat_nonempty; assumption).
  assert (Hmp : forall f : X -> R, map f (concat pos) <> []) by (intros f; destruct (concat pos); [congruence|discriminate]).
  split.
  - destruct (RR E) as (aux & g & R1 & R2 & R3). destruct (RR (fun x => E x + c)) as (aux' & g' & S1 & S2 & S3).
    set (es := concat (map (cl (lmean (map E (concat pos)))) (map (map E) pos))) in *.
    assert (ES : concat (map (cl (lmean (map (fun x => E x + c) (concat pos)))) (map (map (fun x => E x + c)) pos)) = map (fun e => e + c) es).
    { unfold es. rewrite <- (map_map E (fun e => e + c)), lmean_shift by apply Hmp.
      generalize (lmean (map E (concat pos))) as m. intros m. rewrite concat_map, !map_map. f_equal.
      apply map_ext_in. intros s Hs. rewrite <- (map_map E (fun e => e + c)).
      assert (Hsn : map E s <> []) by (apply (Hne E); apply in_map; assumption).
      unfold cl. destruct (Rltb 0 th); [|reflexivity]. rewrite centre_shift, mean_distance_shift, clip_list_shift by assumption. reflexivity. }
    rewrite ES in S1, S2, S3.
    assert (Hes : length es = length (concat pos)).
    { unfold es. rewrite map_map. generalize (lmean (map E (concat pos))) as m. intros m. clear. induction pos as [|s ss IH]; [reflexivity|].
      cbn [map concat]. rewrite !app_length, IH. f_equal. unfold cl. destruct (Rltb 0 th); unfold clip_list; rewrite ?map_length; reflexivity. }
    assert (Hesn : es <> []) by (intros Z0; rewrite Z0 in Hes; simpl in Hes; destruct (concat pos); [congruence|discriminate]).
    exists aux, (lmean es), g, aux', g'. split; [exact R1|]. split; [rewrite S1, lmean_shift by assumption; reflexivity|].
    split; [rewrite R2, S2, lvar_shift by assumption; reflexivity|]. intros j. rewrite R3, S3. do 2 f_equal.
    rewrite !lcov_half by (rewrite ?map_length; lia). rewrite lmean_shift, map_map, map_length by assumption. do 3 f_equal.
    apply map_ext. intros; ring.
  - destruct (RR (fun _ => c)) as (aux & g & R1 & R2 & R3).
    set (es := concat (map (cl (lmean (map (fun _ => c) (concat pos)))) (map (map (fun _ => c)) pos))) in *.
    assert (HM : lmean (map (fun _ : X => c) (concat pos)) = c).
    { apply lmean_const; [apply Hmp|]. intros x Hx. apply in_map_iff in Hx. destruct Hx as (? & <- & _). reflexivity. }
    assert (HI : forall x, In x es -> x = c).
    { unfold es. rewrite HM. intros x Hx. apply in_concat in Hx. destruct Hx as (s & Hs & Hx). apply in_map_iff in Hs. destruct Hs as (s' & <- & Hs').
      assert (AC : forall y, In y s' -> y = c).
      { intros y Hy. apply in_map_iff in Hs'. destruct Hs' as (q & <- & _). apply in_map_iff in Hy. destruct Hy as (? & <- & _). reflexivity. }
      unfold cl in Hx. destruct (Rltb 0 th); [|auto]. unfold clip_list in Hx. apply in_map_iff in Hx. destruct Hx as (y & <- & Hy).
      pose proof (AC y Hy) as ->. assert (HC2 : centre_of cc c s' = c).
      { unfold centre_of. destruct (String.eqb cc "mean"); [reflexivity|].
        pose proof (rmedian_between s' (Hne _ _ Hs')) as HB. cbv zeta in HB.
        assert (HLs : (0 < length (rsort s'))%nat).
        { rewrite <- (Permutation_length (rsort_perm s')). destruct s'; [contradiction|simpl; lia]. }
        assert (NC : forall i, (i < length (rsort s'))%nat -> nth i (rsort s') 0 = c).
        { intros i Hi. apply AC. apply (Permutation_in _ (Permutation_sym (rsort_perm s'))). apply nth_In. assumption. }
        rewrite !NC in HB; [lra|apply Nat.div_lt; lia|apply Nat.div_lt_upper_bound; lia]. }
      rewrite HC2. assert (MD : mean_distance c s' = 0).
      { unfold mean_distance. apply lmean_const; [destruct s'; [contradiction|discriminate]|]. intros z Hz. apply in_map_iff in Hz.
        destruct Hz as (q & <- & Hq). rewrite (AC q Hq). replace (c - c) with 0 by ring. apply Rabs_R0. }
      rewrite MD. apply rclip_inside. replace (c - c) with 0 by ring. rewrite Rabs_R0. lra. }
    assert (Hes : length es = length (concat pos)).
    { unfold es. rewrite map_map. generalize (lmean (map (fun _ : X => c) (concat pos))) as m. intros m. clear. induction pos as [|s ss IH]; [reflexivity|].
      cbn [map concat]. rewrite !app_length, IH. f_equal. unfold cl. destruct (Rltb 0 th); unfold clip_list; rewrite ?map_length; reflexivity. }
    assert (Hesn : es <> []) by (intros Z0; rewrite Z0 in Hes; simpl in Hes; destruct (concat pos); [congruence|discriminate]).
    assert (ME : lmean es = c) by (apply lmean_const; assumption).
    exists aux, g. split; [rewrite R1, ME; reflexivity|]. split.
    + rewrite R2. f_equal. apply lvar_zero_iff; [lia|]. intros x y Hx Hy. rewrite (HI x Hx), (HI y Hy). reflexivity.
    + intros j. rewrite R3. f_equal. rewrite lcov_half by (rewrite ?map_length; lia). rewrite ME.
      rewrite (map_ext_in _ (fun _ => 0)) by (intros x Hx; rewrite (HI x Hx); ring).
      assert (ZS : forall (l l' : list R), lsum (zipw Rmult (map (fun _ => 0) l) l') = 0).
      { clear. unfold lsum. induction l as [|a l IH]; intros [|d l']; simpl; try lra. rewrite IH. ring. }
      rewrite ZS. unfold Rdiv. ring.
Qed.
Print Assumptions C31_shift_and_eigenstate.

(** Exact sampling from |psi|^2 on a finite state space, Hamiltonian any symmetric matrix: the expected
    gradient over n independent walkers is the derivative of the energy (Rayleigh quotient). *)
Definition number (r : result (aux_data * xr * (nat -> list xr))) : R :=
  match r with Ok (_, _, g) => match grad_mean (g O) with Fin r => r | _ => 0 end | Err _ => 0 end.

Theorem C31_unbiased : forall K (psi : nat -> R -> R) (H : nat -> nat -> R) t0 n nan_safe key dle split_n,
  (0 < K)%nat -> (2 <= n)%nat ->
  (forall i j, (i < K)%nat -> (j < K)%nat -> H i j = H j i) ->
  (forall i, (i < K)%nat -> ex_derive (psi i) t0 /\ psi i t0 <> 0) ->
  let born i := psi i t0 ^ 2 / Rsum K (fun i => psi i t0 ^ 2) in
  let energy t := Rsum K (fun i => psi i t * Rsum K (fun j => H i j * psi j t)) / Rsum K (fun i => psi i t ^ 2) in
  let log_psi t i := Fin (ln (Rabs (psi i t))) in
  let dlog_psi t i (_ : nat) := Fin (Derive (fun t => ln (Rabs (psi i t))) t) in
  let local_energy t i (_ : option nat) := Fin (Rsum K (fun j => H i j * psi j t) / psi i t) in
  is_derive energy t0
    (Eiid K born n (fun walkers => number (energy_val_and_grad log_psi dlog_psi local_energy dle n None nan_safe split_n
                                             "standard" t0 [key] [walkers]))).
Proof.
  intros K psi H t0 n b key dle split_n HK Hn Hsym Hpsi born energy log_psi dlog_psi local_energy.
  set (dpsi i := Derive (psi i) t0).
  assert (Hd : forall i, (i < K)%nat -> is_derive (psi i) t0 (dpsi i)) by (intros i Hi; apply Derive_correct, Hpsi; assumption).
  assert (Hnz : forall i, (i < K)%nat -> psi i t0 <> 0) by (intros i Hi; apply Hpsi; assumption).
  rewrite (Eiid_ext K born n _ (fun xs => 2 * lcov (map (eloc K psi t0 H) xs) (map (dlog psi dpsi t0) xs))).
  - rewrite Eiid_scal. change born with (P_unbiased.born K psi t0). rewrite Eiid_cov; [|apply (born_sum K psi dpsi t0); assumption|assumption].
    apply (rayleigh_derive K psi dpsi t0 HK Hd Hnz H Hsym).
  - intros xs Hl Hin.
    destruct (C31_gradient_is_covariance R nat nat log_psi dlog_psi local_energy dle split_n None b t0 [key] [xs]
       (eloc K psi t0 H) (fun i => ln (Rabs (psi i t0))) (fun i _ => dlog psi dpsi t0 i) [map (eloc K psi t0 H) xs]) as (aux & g & E1 & _ & E3).
    + exists n. split; [lia|]. split; [discriminate|]. intros s [<-|[]]. assumption.
    + simpl. rewrite app_nil_r. lia.
    + reflexivity.
    + reflexivity.
    + intros x j Hx. simpl in Hx. rewrite app_nil_r in Hx. unfold dlog_psi. f_equal. apply is_derive_unique.
      apply (dlog_is_derive K); auto.
    + constructor; [split; reflexivity|constructor].
    + assert (EL : length (concat [xs]) = n) by (simpl; rewrite app_nil_r; assumption).
      rewrite EL in E1. rewrite E1. unfold number. rewrite E3. simpl. rewrite !app_nil_r. reflexivity.
Qed.
Print Assumptions C31_unbiased.

(** The generic ("ibp") estimator is unbiased for any parameter-dependent local energies. *)
Theorem C31_generic_unbiased : forall K (psi e : nat -> R -> R) t0 n nan_safe key split_n clip,
  (0 < K)%nat -> (2 <= n)%nat ->
  (forall i, (i < K)%nat -> ex_derive (psi i) t0 /\ psi i t0 <> 0 /\ ex_derive (e i) t0) ->
  let born i := psi i t0 ^ 2 / Rsum K (fun i => psi i t0 ^ 2) in
  let log_psi t i := Fin (ln (Rabs (psi i t))) in
  let dlog_psi t i (_ : nat) := Fin (Derive (fun t => ln (Rabs (psi i t))) t) in
  let local_energy t i (_ : option nat) := Fin (e i t) in
  let dle t i (_ : nat) := Fin (Derive (e i) t) in
  is_derive (fun t => Rsum K (fun i => psi i t ^ 2 * e i t) / Rsum K (fun i => psi i t ^ 2)) t0
    (Eiid K born n (fun walkers => number (energy_val_and_grad log_psi dlog_psi local_energy dle n clip nan_safe split_n
                                             "ibp" t0 [key] [walkers]))).
Proof.
  intros K psi e t0 n b key split_n clip HK Hn Hpsi born log_psi dlog_psi local_energy dle.
  set (dpsi i := Derive (psi i) t0). set (de i := Derive (e i) t0).
  assert (Hd : forall i, (i < K)%nat -> is_derive (psi i) t0 (dpsi i)) by (intros i Hi; apply Derive_correct, Hpsi; assumption).
  assert (Hnz : forall i, (i < K)%nat -> psi i t0 <> 0) by (intros i Hi; apply Hpsi; assumption).
  assert (He : forall i, (i < K)%nat -> is_derive (e i) t0 (de i)) by (intros i Hi; apply Derive_correct, Hpsi; assumption).
  rewrite (Eiid_ext K born n _ (fun xs => lmean (map de xs) + 2 * lcov (map (fun i => e i t0) xs) (map (dlog psi dpsi t0) xs))).
  - rewrite Eiid_plus, Eiid_scal. change born with (P_unbiased.born K psi t0).
    rewrite Eiid_cov, Eiid_mean; try (apply (born_sum K psi dpsi t0); assumption); try lia.
    apply (expectation_derive K psi dpsi t0 HK Hd Hnz e de He).
  - intros xs Hl Hin.
    destruct (C31_gradient_is_covariance R nat nat log_psi dlog_psi local_energy dle split_n None b t0 [key] [xs]
       (fun i => e i t0) (fun i => ln (Rabs (psi i t0))) (fun i _ => dlog psi dpsi t0 i) [map (fun i => e i t0) xs]) as (aux & g & E1 & _ & E3).
    + exists n. split; [lia|]. split; [discriminate|]. intros s [<-|[]]. assumption.
    + simpl. rewrite app_nil_r. lia.
    + reflexivity.
    + reflexivity.
    + intros x j Hx. simpl in Hx. rewrite app_nil_r in Hx. unfold dlog_psi. f_equal. apply is_derive_unique.
      apply (dlog_is_derive K); auto.
    + constructor; [split; reflexivity|constructor].
    + assert (EL : length (concat [xs]) = n) by (simpl; rewrite app_nil_r; assumption).
      rewrite EL in E1. unfold energy_val_and_grad in *. simpl in E1. cbn [String.eqb Ascii.eqb Bool.eqb]. simpl.
      assert (GL : length (g O) = 1%nat).
      { unfold get_standard_contribution in E1. destruct (get_clipped_energies_and_aux_data _ _ _ _) as [[[e0 les] a0]|] eqn:EG; [|discriminate].
        destruct (Nat.eqb n 1); [discriminate|]. injection E1 as _ _ <-.
        unfold get_clipped_energies_and_aux_data in EG. destruct (get_statistics_from_local_energy _ n false). destruct (get_statistics_from_local_energy _ n b).
        injection EG as _ <- _. reflexivity. }
      rewrite E1. unfold number.
      assert (MG : mean_over_first_axis b [map (fun x => dle t0 x O) xs] = Fin (lmean (map de xs))).
      { pose proof (means_fin b [map de xs]) as M. simpl in M. rewrite app_nil_r, map_map in M. apply M.
        exists n. split; [lia|]. split; [discriminate|]. intros s [<-|[]]. rewrite map_length. assumption. }
      rewrite MG. specialize (E3 O). destruct (g O) as [|v [|? ?]]; try discriminate GL.
      unfold grad_mean, xmean in E3 |- *. simpl in E3 |- *.
      destruct v as [v| | |]; simpl in E3; try discriminate E3.
      * xnum E3. injection E3 as E3. rewrite app_nil_r in E3.
        replace ((v + 0) / 1) with v in E3 by field.
        xnumg. rewrite E3. rewrite app_nil_r. change (fun x => dlog psi dpsi t0 x) with (dlog psi dpsi t0). field.
      * exfalso. destruct (Req_EM_T 1 0); [discriminate|]. unfold inf_of_sign in E3. repeat destruct (Rlt_dec _ _); discriminate.
      * exfalso. destruct (Req_EM_T 1 0); [discriminate|]. unfold inf_of_sign in E3. repeat destruct (Rlt_dec _ _); discriminate.
Qed.
Print Assumptions C31_generic_unbiased.

(** NaN-safe averaging does not protect the gradient: one NaN local energy makes every component of the
    gradient NaN, even where the reported energy is a number. *)
Theorem C31_nan_safe_gradient_refuted : forall (P X K : Type) log_psi dlog_psi local_energy dlocal_energy split_n
    nan_safe nchains (p : P) (keys : list K) (pos : list (list X)) x,
  In x (concat pos) -> local_energy p x None = NaN -> nchains <> 1%nat ->
  (exists aux e g, energy_val_and_grad log_psi dlog_psi local_energy dlocal_energy nchains None nan_safe split_n "standard" p keys pos = Ok (aux, e, g) /\
    forall j, grad_mean (g j) = NaN) /\
  exists aux e g, energy_val_and_grad (fun _ _ => Fin 1) (fun _ _ _ => Fin 1) (fun _ i _ => match i with O => NaN | S i => Fin (INR i) end)
     (fun _ _ _ => Fin 0) 3 None true (fun _ _ => []) "standard" tt [tt] [[0; 1; 2]]%nat = Ok (aux, Fin e, g) /\ grad_mean (g O) = NaN.
Proof.
  intros P X K log_psi dlog_psi le dle split_n b n p keys pos x Hx Hnan Hn.
  assert (G : forall (P X K : Type) log_psi dlog_psi le dle split_n b n (p : P) (keys : list K) (pos : list (list X)) x, In x (concat pos) -> le p x None = NaN -> n <> 1%nat ->
    exists aux e g, energy_val_and_grad log_psi dlog_psi le dle n None b split_n "standard" p keys pos = Ok (aux, e, g) /\
    (forall j, grad_mean (g j) = NaN) /\ e = fst (get_statistics_from_local_energy (map (map (fun x => le p x None)) pos) n b)).
  { clear. intros P X K log_psi dlog_psi le dle split_n b n p keys pos x Hx Hnan Hn.
    unfold energy_val_and_grad. cbn [String.eqb Ascii.eqb Bool.eqb]. unfold get_standard_contribution, get_clipped_energies_and_aux_data.
    destruct (get_statistics_from_local_energy (map (map (fun x => le p x None)) pos) n false) as [en vn].
    destruct (get_statistics_from_local_energy (map (map (fun x => le p x None)) pos) n b) as [e v].
    destruct (Nat.eqb_spec n 1); [congruence|]. eexists _, _, _. split; [reflexivity|]. split; [|reflexivity]. intros j.
    unfold grad_mean. apply xmean_nan. apply in_concat in Hx. destruct Hx as (s & Hs & Hx).
    apply in_map_iff. exists (map (fun l => xsub l e) (map (fun x => le p x None) s), s). split.
    - simpl. apply grad_device_nan; rewrite ?map_length; try reflexivity. apply in_map_iff. exists NaN. split; [reflexivity|].
      apply in_map_iff. exists x. auto.
    - clear - Hs. induction pos as [|a pos IH]; [contradiction|]. destruct Hs as [<-|Hs]; simpl; auto. }
  split.
  - destruct (G P X K log_psi dlog_psi le dle split_n b n p keys pos x Hx Hnan Hn) as (aux & e & g & E1 & E2 & _). exists aux, e, g. auto.
  - destruct (G unit nat unit (fun _ _ => Fin 1) (fun _ _ _ => Fin 1) (fun _ i _ => match i with O => NaN | S i => Fin (INR i) end)
     (fun _ _ _ => Fin 0) (fun _ _ => []) true 3%nat tt [tt] [[0; 1; 2]]%nat 0%nat) as (aux & e & g & E1 & E2 & E3); [left; reflexivity|reflexivity|lia|].
    exists aux, (1 / 2), g. split; [|apply E2]. rewrite E1. f_equal. f_equal. f_equal. rewrite E3.
    unfold get_statistics_from_local_energy, mean_over_first_axis, nanmean_all_local_devices, xnanmean, xmean. simpl.
    xnumg. f_equal. field.
Qed.
Print Assumptions C31_nan_safe_gradient_refuted.

(** Error cases: one single walker, or an unknown kind of local energy. *)
Theorem C31_errors : forall (P X K : Type) log_psi dlog_psi local_energy dlocal_energy split_n
    nan_safe (p : P) (keys : list K) (pos : list (list X)) nchains,
  energy_val_and_grad log_psi dlog_psi local_energy dlocal_energy 1 None nan_safe split_n "standard" p keys pos = Err ZeroDivision /\
  (forall kind clip, kind <> "standard"%string -> kind <> "ibp"%string -> kind <> "random_particle"%string ->
     energy_val_and_grad log_psi dlog_psi local_energy dlocal_energy nchains clip nan_safe split_n kind p keys pos = Err BadLocalEnergyType).
Proof.
  intros. split.
  - unfold energy_val_and_grad, get_standard_contribution, get_clipped_energies_and_aux_data. cbn [String.eqb Ascii.eqb Bool.eqb].
    destruct (get_statistics_from_local_energy _ 1 false). destruct (get_statistics_from_local_energy _ 1 nan_safe). reflexivity.
  - intros kind clip H1 H2 H3. unfold energy_val_and_grad. apply String.eqb_neq in H1, H2, H3. rewrite H1, H2, H3. reflexivity.
Qed.
Print Assumptions C31_errors.

(** A concrete instance: local energies 1, 2, 3, 6 and log-derivatives 0, 1, 2, 3 on two devices. *)
Example C31_example : exists aux g, energy_val_and_grad (K := unit) (fun _ x => Fin (INR x)) (fun _ x _ => Fin (INR x))
    (fun _ x _ => Fin (nth x [1; 2; 3; 6] 0)) (fun _ _ _ => Fin 0) 4 None true (fun _ _ => []) "standard" tt [tt; tt] [[0; 1]; [2; 3]]%nat
    = Ok (aux, Fin 3, g) /\ grad_mean (g O) = Fin (16 / 3).
Proof.
  destruct (C31_gradient_is_covariance unit nat unit (fun _ x => Fin (INR x)) (fun _ x _ => Fin (INR x))
    (fun _ x _ => Fin (nth x [1; 2; 3; 6] 0)) (fun _ _ _ => Fin 0) (fun _ _ => []) None true tt [tt; tt] [[0; 1]; [2; 3]]%nat
    (fun x => nth x [1; 2; 3; 6] 0) INR (fun x _ => INR x) [[1; 2]; [3; 6]]) as (aux & g & E1 & _ & E3); try reflexivity.
  - exists 2%nat. split; [lia|]. split; [discriminate|]. intros s [<-|[<-|[]]]; reflexivity.
  - simpl. lia.
  - constructor; [split; reflexivity|constructor; [split; reflexivity|constructor]].
  - exists aux, g. simpl length in E1. rewrite E1. split.
    + f_equal. f_equal. f_equal. unfold lmean, lsum. simpl. f_equal. field.
    + rewrite E3. f_equal. unfold lcov, lmean, lsum. simpl. field.
Qed.

(** ** C32 *)
Theorem C32_sum_of_terms : forall (P X : Type) (terms : list (P -> X -> xr)) (vals : list R) p x, terms <> [] ->
  map (fun t => t p x) terms = map Fin vals ->
  combine_local_energy_terms terms p x = Some (Fin (lsum vals)) /\
  (forall terms', Permutation terms terms' -> combine_local_energy_terms terms' p x = combine_local_energy_terms terms p x).
Proof.
  assert (G : forall (P X : Type) (terms : list (P -> X -> xr)) (vals : list R) p x, terms <> [] ->
     map (fun t => t p x) terms = map Fin vals -> combine_local_energy_terms terms p x = Some (Fin (lsum vals))).
  { intros P X terms vals p x Hne H. destruct terms as [|t0 rest]; [congruence|]. destruct vals as [|v vals]; [discriminate|]. simpl in *.
    injection H as H0 H. rewrite H0. f_equal.
    assert (F : forall a, fold_left (fun acc t => xadd acc (t p x)) rest (Fin a) = Fin (a + lsum vals)).
    { clear - H. revert vals H. induction rest as [|t rest IH]; intros [|v vals] H a; try discriminate; unfold lsum; simpl; [f_equal; ring|].
      simpl in H. injection H as H0 H. rewrite H0. simpl. rewrite (IH vals H). unfold lsum. f_equal. ring. }
    rewrite F. reflexivity. }
  intros P X terms vals p x Hne H. split; [apply G; assumption|]. intros terms' HP.
  rewrite (G P X terms vals p x Hne H).
  assert (HP2 : Permutation (map Fin vals) (map (fun t => t p x) terms')) by (rewrite <- H; apply Permutation_map; assumption).
  apply Permutation_sym, Permutation_map_inv in HP2. destruct HP2 as (vals' & E & HPv).
  rewrite (G P X terms' vals' p x); [f_equal; f_equal; apply lsum_perm, Permutation_sym; assumption| |assumption].
  intros ->. apply Permutation_sym, Permutation_nil in HP. congruence.
Qed.
Print Assumptions C32_sum_of_terms.
(** Infinite and undefined values included: the order of the terms is irrelevant. *)
Theorem C32_any_order : forall (P X : Type) (terms terms' : list (P -> X -> xr)) p x, Permutation terms terms' ->
  combine_local_energy_terms terms' p x = combine_local_energy_terms terms p x /\
  (terms <> [] -> combine_local_energy_terms terms p x = Some (xsum (map (fun t => t p x) terms))).
Proof.
  assert (G : forall (P X : Type) (terms : list (P -> X -> xr)) p x, terms <> [] -> combine_local_energy_terms terms p x = Some (xsum (map (fun t => t p x) terms))).
  { intros P X [|t0 rest] p x H; [congruence|]. cbn [combine_local_energy_terms map]. f_equal. rewrite xsum_cons. clear H. generalize (t0 p x) as a.
    induction rest as [|t rest IH]; intros a; cbn [fold_left map]; [change (xsum []) with (Fin 0); rewrite xadd_comm, xadd_0_l; reflexivity|].
    rewrite IH, xsum_cons, xadd_assoc. reflexivity. }
  intros P X terms terms' p x H. split; [|apply G].
  destruct terms as [|t l]; [apply Permutation_nil in H; subst; reflexivity|]. rewrite !G; [|discriminate|intros ->; apply Permutation_sym, Permutation_nil in H; discriminate].
  f_equal. apply xsum_perm, Permutation_map, Permutation_sym. exact H.
Qed.
Print Assumptions C32_any_order.
Example C32_infinite_example : combine_local_energy_terms [fun (_ : unit) (x : R) => PInf; fun _ x => Fin x; fun _ _ => MInf] tt 3 = Some NaN /\
  combine_local_energy_terms [fun (_ : unit) (x : R) => Fin x; fun _ x => PInf] tt 3 = Some PInf.
Proof. split; reflexivity. Qed.

Theorem C32_single_and_empty : forall (P X : Type) (kinetic : P -> X -> xr) p x,
  combine_local_energy_terms [kinetic] p x = Some (kinetic p x) /\
  combine_local_energy_terms (@nil (P -> X -> xr)) p x = None.
Proof. intros; split; reflexivity. Qed.
Print Assumptions C32_single_and_empty.

Example C32_example : combine_local_energy_terms [fun (_ : unit) (x : R) => Fin x; fun _ x => Fin (2 * x); fun _ _ => Fin 5] tt 3 = Some (Fin 14).
Proof.
  destruct (C32_sum_of_terms unit R [fun (_ : unit) (x : R) => Fin x; fun _ x => Fin (2 * x); fun _ _ => Fin 5] [3; 6; 5] tt 3) as [-> _].
  - discriminate.
  - simpl. do 2 f_equal; f_equal; ring.
  - unfold lsum. simpl. f_equal. f_equal. ring.
Qed.
