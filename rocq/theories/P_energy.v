(** * Proofs about energy statistics and clipping *)
From Coq Require Import Reals String List Arith Bool Lra Lia Permutation Sorting.Sorted.
From Verif Require Import XReal Rsum M_mcmc M_distribute M_energy S_energy P_distribute P_stats.
Import ListNotations.
Local Open Scope R_scope.

(** ** Statistics *)
Lemma stats_fin (shards : list (list R)) n b : evenly shards -> n = length (concat shards) -> (2 <= n)%nat ->
  get_statistics_from_local_energy (map (map Fin) shards) n b = (Fin (lmean (concat shards)), Fin (lvar (concat shards))).
Proof.
  intros He -> Hn. unfold get_statistics_from_local_energy. rewrite means_fin by assumption. f_equal.
  set (e := lmean (concat shards)).
  assert (E : map (map (fun v => xmul (xsub v (Fin e)) (xsub v (Fin e)))) (map (map Fin) shards)
              = map (map Fin) (map (map (fun v => (v - e) ^ 2)) shards)).
  { rewrite !map_map. apply map_ext. intros s. rewrite !map_map. apply map_ext. intros v. unfold xsub. simpl. f_equal. ring. }
  rewrite E, means_fin by (apply evenly_map; assumption). cbn [xmul].
  assert (HL : 2 <= INR (length (concat shards))) by (apply (le_INR 2); assumption).
  rewrite xdiv_fin by lra. f_equal. unfold lvar, lmean at 1. rewrite <- concat_map, map_length. fold e.
  field. split; lra.
Qed.

Lemma lvar_nonneg l : (2 <= length l)%nat -> 0 <= lvar l.
Proof.
  intros H. apply (le_INR 2) in H. simpl in H. apply Rmult_le_pos.
  - apply lsum_nonneg. intros x Hx. apply in_map_iff in Hx. destruct Hx as (y & <- & _). apply pow2_ge_0.
  - left. apply Rinv_0_lt_compat. lra.
Qed.

Lemma lmean_const l a : l <> [] -> (forall x, In x l -> x = a) -> lmean l = a.
Proof.
  intros Hl H. unfold lmean. rewrite <- (map_id l) at 1. rewrite (map_ext_in (fun x => x) (fun _ => a)) by assumption.
  rewrite lsum_map_const. field. apply Rgt_not_eq, lt_0_INR. destruct l; [congruence|simpl; lia].
Qed.

Lemma lvar_zero_iff l : (2 <= length l)%nat -> lvar l = 0 <-> forall x y, In x l -> In y l -> x = y.
Proof.
  intros H. pose proof H as H'. apply (le_INR 2) in H. simpl in H. split.
  - intros E. assert (E2 : lsum (map (fun e => (e - lmean l) ^ 2) l) = 0).
    { unfold lvar in E. apply Rmult_integral in E. destruct E as [E|E]; [assumption|]. exfalso. revert E.
      apply Rinv_neq_0_compat. lra. }
    assert (Z : forall x, In x l -> x = lmean l).
    { intros x Hx. assert ((x - lmean l) ^ 2 = 0).
      { apply (lsum_zero_terms (map (fun e => (e - lmean l) ^ 2) l)); [|assumption|].
        - intros z Hz. apply in_map_iff in Hz. destruct Hz as (y & <- & _). apply pow2_ge_0.
        - apply (in_map (fun e => (e - lmean l) ^ 2)). assumption. }
      assert (x - lmean l = 0) by (apply Rsqr_0_uniq; unfold Rsqr; lra). lra. }
    intros x y Hx Hy. rewrite (Z x Hx), (Z y Hy). reflexivity.
  - intros E. assert (exists a, In a l) as [a Ha] by (destruct l as [|a l]; [simpl in H'; lia|exists a; left; reflexivity]).
    unfold lvar. rewrite (map_ext_in _ (fun _ => 0)).
    + rewrite lsum_map_const. unfold Rdiv. ring.
    + intros x Hx. rewrite (lmean_const l a); [|destruct l; [contradiction|discriminate]|intros; apply E; assumption].
      rewrite (E x a Hx Ha). ring.
Qed.

Lemma lmean_shift l c : l <> [] -> lmean (map (fun e => e + c) l) = lmean l + c.
Proof.
  intros H. unfold lmean. rewrite map_length, lsum_map_plus, map_id, lsum_map_const. field.
  apply Rgt_not_eq, lt_0_INR. destruct l; [congruence|simpl; lia].
Qed.

Lemma lvar_shift l c : l <> [] -> lvar (map (fun e => e + c) l) = lvar l.
Proof.
  intros H. unfold lvar. rewrite lmean_shift, map_length, map_map by assumption. f_equal. f_equal.
  apply map_ext. intros. ring.
Qed.

Lemma lvar_perm l l' : Permutation l l' -> lvar l = lvar l'.
Proof.
  intros H. unfold lvar. rewrite (lmean_perm _ _ H), (Permutation_length H). f_equal.
  apply lsum_perm. apply Permutation_map. assumption.
Qed.

(** ** NaN *)
Lemma xmean_nan l : In NaN l -> xmean l = NaN.
Proof. intros H. unfold xmean. rewrite xsum_nan by assumption. apply xdiv_nan_l. Qed.

Lemma mean_all_nan shards s : In s shards -> In NaN s -> mean_all_local_devices shards = NaN.
Proof.
  intros H1 H2. unfold mean_all_local_devices. apply xmean_nan. apply in_map_iff. exists s. split; [apply xmean_nan|]; assumption.
Qed.

Lemma stats_nan shards s n : In s shards -> In NaN s -> get_statistics_from_local_energy shards n false = (NaN, NaN).
Proof.
  intros H1 H2. unfold get_statistics_from_local_energy, mean_over_first_axis. rewrite (mean_all_nan shards s) by assumption.
  f_equal. rewrite (mean_all_nan _ (map (fun e => xmul (xsub e NaN) (xsub e NaN)) s)).
  - rewrite xmul_nan_l, xdiv_nan_l. reflexivity.
  - apply (in_map (map (fun e => xmul (xsub e NaN) (xsub e NaN)))). assumption.
  - apply in_map_iff. exists NaN. split; [reflexivity|assumption].
Qed.

Lemma xclip_nan_lo v hi : xclip v NaN hi = NaN.
Proof. unfold xclip, xmax. destruct v; reflexivity. Qed.
Lemma xclip_nan_v lo hi : xclip NaN lo hi = NaN.
Proof. reflexivity. Qed.

Lemma xnanmean_all_nan l : (forall v, In v l -> v = NaN) -> xnanmean l = NaN.
Proof.
  intros H. unfold xnanmean. assert (E : filter (fun v => negb (isnan v)) l = []).
  { induction l as [|v l IH]; [reflexivity|]. simpl. rewrite (H v (or_introl eq_refl)). simpl. apply IH.
    intros; apply H; right; assumption. }
  rewrite E. unfold xmean. simpl. apply xdiv_0_0.
Qed.

Lemma mean_axis_all_nan b shards : shards <> [] -> (forall s, In s shards -> s <> [] /\ forall v, In v s -> v = NaN) ->
  mean_over_first_axis b shards = NaN.
Proof.
  intros Hs H. destruct shards as [|s ss]; [congruence|]. destruct (H s (or_introl eq_refl)) as [Hne Hv].
  destruct b; simpl.
  - unfold nanmean_all_local_devices. apply xmean_nan. left. apply xnanmean_all_nan. assumption.
  - apply (mean_all_nan _ s); [left; reflexivity|]. destruct s as [|v s]; [congruence|].
    rewrite <- (Hv v (or_introl eq_refl)). left; reflexivity.
Qed.

Lemma stats_all_nan b shards n : shards <> [] -> (forall s, In s shards -> s <> [] /\ forall v, In v s -> v = NaN) ->
  get_statistics_from_local_energy shards n b = (NaN, NaN).
Proof.
  intros Hs H. unfold get_statistics_from_local_energy. rewrite (mean_axis_all_nan b shards) by assumption. f_equal.
  rewrite mean_axis_all_nan.
  - rewrite xmul_nan_l, xdiv_nan_l. reflexivity.
  - destruct shards; [congruence|discriminate].
  - intros s Hin. apply in_map_iff in Hin. destruct Hin as (s' & <- & Hin). destruct (H s' Hin) as [Hne Hv]. split.
    + destruct s'; [congruence|discriminate].
    + intros v Hv'. apply in_map_iff in Hv'. destruct Hv' as (w & <- & Hw). unfold xsub. rewrite xadd_nan_r. reflexivity.
Qed.

(** ** Clipping *)
Definition rclip (v lo hi : R) : R := Rmin (Rmax v lo) hi.

Lemma xmax_fin a b : xmax (Fin a) (Fin b) = Fin (Rmax a b).
Proof. unfold xmax. simpl. unfold Rltb, Rmax. destruct (Rlt_dec a b), (Rle_dec a b); try reflexivity; try (exfalso; lra). f_equal; lra. Qed.

Lemma xclip_fin v lo hi : xclip (Fin v) (Fin lo) (Fin hi) = Fin (rclip v lo hi).
Proof. unfold xclip. rewrite xmax_fin, xmin_fin. reflexivity. Qed.

Lemma rclip_closest c w e : 0 <= w -> closest_within c w e (rclip e (c - w) (c + w)).
Proof.
  intros Hw. unfold rclip, Rmin, Rmax. split.
  - destruct (Rle_dec e (c - w)), (Rle_dec _ (c + w)); unfold Rabs; destruct (Rcase_abs _); lra.
  - intros y Hy. destruct (Rle_dec e (c - w)), (Rle_dec _ (c + w)); revert Hy; unfold Rabs; repeat destruct (Rcase_abs _); lra.
Qed.

Lemma rclip_inside c w e : Rabs (e - c) <= w -> rclip e (c - w) (c + w) = e.
Proof.
  intros H. destruct (rclip_closest c w e) as [_ H2]; [pose proof (Rabs_pos (e - c)); lra|].
  specialize (H2 e H). replace (e - e) with 0 in H2 by ring. rewrite Rabs_R0 in H2.
  pose proof (Rabs_pos (e - rclip e (c - w) (c + w))). assert (Z : Rabs (e - rclip e (c - w) (c + w)) = 0) by lra.
  destruct (Req_dec (e - rclip e (c - w) (c + w)) 0) as [Y|Y]; [lra|]. apply Rabs_no_R0 in Y. lra.
Qed.

Lemma rclip_mono c w e1 e2 : e1 <= e2 -> rclip e1 (c - w) (c + w) <= rclip e2 (c - w) (c + w).
Proof.
  intros H. unfold rclip. apply Rle_min_compat_r. apply Rle_max_compat_r. assumption.
Qed.

Definition clip_list (c w : R) (l : list R) : list R := map (fun e => rclip e (c - w) (c + w)) l.

Definition centre_ok (cc : string) : bool := (String.eqb cc "mean" || String.eqb cc "median")%bool.

Lemma clip_window_fin th c l : l <> [] ->
  let tv := xnanmean (map (fun e => xabs (xsub e (Fin c))) (map Fin l)) in
  map (fun e => xclip e (xsub (Fin c) (xmul (Fin th) tv)) (xadd (Fin c) (xmul (Fin th) tv))) (map Fin l)
  = map Fin (clip_list c (th * mean_distance c l) l).
Proof.
  intros Hl tv.
  assert (E : tv = Fin (mean_distance c l)).
  { unfold tv. replace (map (fun e => xabs (xsub e (Fin c))) (map Fin l)) with (map Fin (map (fun e => Rabs (e - c)) l)).
    - apply xnanmean_fin. destruct l; [congruence|discriminate].
    - rewrite !map_map. reflexivity. }
  rewrite E. unfold clip_list. rewrite !map_map. apply map_ext. intros e. cbn [xmul xadd xsub xopp].
  unfold xsub. cbn [xopp xadd]. rewrite xclip_fin. reflexivity.
Qed.

(** *** The median *)
Fixpoint rinsert (v : R) (l : list R) : list R :=
  match l with [] => [v] | a :: l' => if Rltb v a then v :: l else a :: rinsert v l' end.
Definition rsort (l : list R) : list R := fold_right rinsert [] l.

Lemma xsort_fin l : xsort (map Fin l) = map Fin (rsort l).
Proof.
  assert (I : forall v l, xinsert (Fin v) (map Fin l) = map Fin (rinsert v l)).
  { intros v. induction l0 as [|a l0 IH]; [reflexivity|]. cbn [map xinsert rinsert xltb]. destruct (Rltb v a); [reflexivity|].
    rewrite IH. reflexivity. }
  induction l as [|a l IH]; [reflexivity|]. change (xinsert (Fin a) (xsort (map Fin l)) = map Fin (rinsert a (rsort l))).
  rewrite IH. apply I.
Qed.

Lemma rinsert_perm v l : Permutation (v :: l) (rinsert v l).
Proof.
  induction l as [|a l IH]; simpl; [apply Permutation_refl|]. destruct (Rltb v a); [apply Permutation_refl|].
  eapply Permutation_trans; [apply perm_swap|]. apply perm_skip. assumption.
Qed.
Lemma rsort_perm l : Permutation l (rsort l).
Proof.
  induction l as [|a l IH]; [constructor|]. eapply Permutation_trans; [apply perm_skip; exact IH|]. apply rinsert_perm.
Qed.

Lemma rinsert_sorted v l : StronglySorted Rle l -> StronglySorted Rle (rinsert v l).
Proof.
  induction 1 as [|a l HS IH HF]; simpl; [constructor; constructor|]. unfold Rltb. destruct (Rlt_dec v a) as [H|H].
  - constructor; [constructor; assumption|]. constructor; [lra|]. eapply Forall_impl; [|exact HF]. intros; simpl in *; lra.
  - constructor; [assumption|]. rewrite Forall_forall in *. intros x Hx.
    apply (Permutation_in _ (Permutation_sym (rinsert_perm v l))) in Hx. destruct Hx as [<-|Hx]; [lra|auto].
Qed.
Lemma rsort_sorted l : StronglySorted Rle (rsort l).
Proof. induction l; [constructor|]. apply rinsert_sorted. assumption. Qed.

Lemma sorted_nth l i j : StronglySorted Rle l -> (i <= j)%nat -> (j < length l)%nat -> nth i l 0 <= nth j l 0.
Proof.
  intros H. revert i j. induction H as [|a l HS IH HF]; intros i j Hij Hj; [simpl in Hj; lia|].
  destruct i as [|i], j as [|j]; simpl; try lia; try lra.
  - rewrite Forall_forall in HF. apply HF. apply nth_In. simpl in Hj. lia.
  - apply IH; simpl in Hj; lia.
Qed.

Lemma filter_perm_length {A} (f : A -> bool) l l' : Permutation l l' -> length (filter f l) = length (filter f l').
Proof. intros H. apply Permutation_length. induction H; simpl; try constructor; try (destruct (f x)); try (destruct (f y)); try constructor; try assumption; try apply Permutation_refl; try apply perm_swap. eapply Permutation_trans; eauto. Qed.

Lemma filter_firstn_length {A} (f : A -> bool) l k d : (k <= length l)%nat -> (forall i, (i < k)%nat -> f (nth i l d) = true) ->
  (k <= length (filter f l))%nat.
Proof.
  revert k. induction l as [|a l IH]; intros k Hk H; simpl in *; [lia|]. destruct k as [|k]; [lia|].
  pose proof (H O ltac:(lia)) as H0. simpl in H0. rewrite H0. simpl.
  enough (k <= length (filter f l))%nat by lia. apply IH; [lia|]. intros i Hi. apply (H (S i)). lia.
Qed.

Lemma filter_skipn_length {A} (f : A -> bool) l k d : (forall i, (k <= i < length l)%nat -> f (nth i l d) = true) ->
  (length l - k <= length (filter f l))%nat.
Proof.
  revert k. induction l as [|a l IH]; intros k H; simpl in *; [lia|]. destruct k as [|k].
  - pose proof (H O ltac:(lia)) as H0. simpl in H0. rewrite H0. simpl. specialize (IH O).
    enough (length l - 0 <= length (filter f l))%nat by lia. apply IH. intros i Hi. apply (H (S i)). lia.
  - assert (length l - k <= length (filter f l))%nat by (apply IH; intros i Hi; apply (H (S i)); lia).
    destruct (f a); simpl; lia.
Qed.

Definition rmedian (l : list R) : R :=
  let s := rsort l in let n := length s in
  let w := if Nat.even n then 1 / 2 else 0 in
  nth ((n - 1) / 2) s 0 * (1 - w) + nth (n / 2) s 0 * w.

Lemma nanmedian_fin l : l <> [] -> nanmedian (map Fin l) = Fin (rmedian l).
Proof.
  intros Hl. unfold nanmedian, rmedian. rewrite filter_fin, xsort_fin, map_length.
  assert (HL : (0 < length (rsort l))%nat).
  { rewrite <- (Permutation_length (rsort_perm l)). destruct l; [congruence|simpl; lia]. }
  destruct (Nat.eqb_spec (length (rsort l)) 0) as [|_]; [lia|].
  set (n := length (rsort l)) in *.
  assert (X : forall i, (i < n)%nat -> nth i (map Fin (rsort l)) NaN = Fin (nth i (rsort l) 0)).
  { intros i Hi. rewrite (nth_indep _ NaN (Fin 0)) by (rewrite map_length; assumption). apply map_nth. }
  rewrite !X. reflexivity.
  - apply Nat.div_lt; lia.
  - apply Nat.div_lt_upper_bound; lia.
Qed.

Lemma rmedian_between l : l <> [] -> let s := rsort l in let n := length s in
  nth ((n - 1) / 2) s 0 <= rmedian l <= nth (n / 2) s 0.
Proof.
  intros Hl s n. assert (HL : (0 < n)%nat).
  { unfold n, s. rewrite <- (Permutation_length (rsort_perm l)). destruct l; [congruence|simpl; lia]. }
  assert (H : nth ((n - 1) / 2) s 0 <= nth (n / 2) s 0).
  { apply sorted_nth; [apply rsort_sorted| |apply Nat.div_lt; lia]. apply Nat.div_le_mono; lia. }
  unfold rmedian. fold s. fold n. destruct (Nat.even n); lra.
Qed.

Lemma rmedian_is_median l : l <> [] -> is_median (rmedian l) l.
Proof.
  intros Hl. pose proof (rmedian_between l Hl) as HB. cbv zeta in HB.
  assert (HL : (0 < length (rsort l))%nat).
  { rewrite <- (Permutation_length (rsort_perm l)). destruct l; [congruence|simpl; lia]. }
  unfold is_median. rewrite !(filter_perm_length _ _ _ (rsort_perm l)), (Permutation_length (rsort_perm l)).
  set (s := rsort l) in *. set (n := length s) in *. split.
  - assert (H : ((n - 1) / 2 + 1 <= length (filter (fun e => if Rle_dec e (rmedian l) then true else false) s))%nat).
    { apply (filter_firstn_length _ s _ 0).
      - pose proof (Nat.div_lt_upper_bound (n - 1) 2 n ltac:(lia) ltac:(lia)). fold n. lia.
      - intros i Hi. destruct (Rle_dec (nth i s 0) (rmedian l)) as [|Hn]; [reflexivity|]. exfalso. apply Hn.
        eapply Rle_trans; [|apply HB]. apply sorted_nth; [apply rsort_sorted|lia|].
        apply Nat.div_lt_upper_bound; fold n; lia. }
    pose proof (Nat.div_mod (n - 1) 2 ltac:(lia)). pose proof (Nat.mod_upper_bound (n - 1) 2 ltac:(lia)). lia.
  - assert (H : (n - n / 2 <= length (filter (fun e => if Rle_dec (rmedian l) e then true else false) s))%nat).
    { apply (filter_skipn_length _ s _ 0). intros i Hi. destruct (Rle_dec (rmedian l) (nth i s 0)) as [|Hn]; [reflexivity|].
      exfalso. apply Hn. eapply Rle_trans; [apply HB|]. apply sorted_nth; [apply rsort_sorted|lia|]. fold n. lia. }
    pose proof (Nat.div_mod n 2 ltac:(lia)). pose proof (Nat.mod_upper_bound n 2 ltac:(lia)). lia.
Qed.

(** *** The clipping function *)
Definition centre_of (cc : string) (e : R) (l : list R) : R := if String.eqb cc "mean" then e else rmedian l.

Lemma clip_fn_fin th cc l e : l <> [] -> centre_ok cc = true ->
  total_variation_clipping_fn th cc (map Fin l) (Fin e) =
  Some (map Fin (clip_list (centre_of cc e l) (th * mean_distance (centre_of cc e l) l) l)).
Proof.
  intros Hl Hc. unfold total_variation_clipping_fn, centre_of. unfold centre_ok in Hc.
  destruct (String.eqb cc "mean"); [f_equal; apply clip_window_fin; assumption|].
  simpl in Hc. rewrite Hc. rewrite nanmedian_fin by assumption. f_equal. apply clip_window_fin. assumption.
Qed.

Lemma mean_distance_nonneg c l : 0 <= mean_distance c l.
Proof.
  unfold mean_distance, lmean. destruct l as [|a l]; [simpl; unfold Rdiv; rewrite Rmult_0_l; lra|].
  apply Rmult_le_pos.
  - apply lsum_nonneg. intros x Hx. apply in_map_iff in Hx. destruct Hx as (y & <- & _). apply Rabs_pos.
  - left. apply Rinv_0_lt_compat, lt_0_INR. simpl. lia.
Qed.

Lemma lsum_ge_term l x : (forall y, In y l -> 0 <= y) -> In x l -> x <= lsum l.
Proof.
  induction l as [|a l IH]; intros H Hx; [destruct Hx|]. destruct Hx as [<-|Hx]; unfold lsum; simpl.
  - fold (lsum l). assert (0 <= lsum l) by (apply lsum_nonneg; intros; apply H; right; assumption). lra.
  - fold (lsum l). pose proof (H a (or_introl eq_refl)). specialize (IH ltac:(intros; apply H; right; assumption) Hx). lra.
Qed.

Lemma distance_le_sum c l e : In e l -> Rabs (e - c) <= INR (length l) * mean_distance c l.
Proof.
  intros H. unfold mean_distance, lmean. rewrite map_length.
  assert (0 < INR (length l)) by (apply lt_0_INR; destruct l; [contradiction|simpl; lia]).
  replace (INR (length l) * (lsum (map (fun e => Rabs (e - c)) l) / INR (length l))) with (lsum (map (fun e => Rabs (e - c)) l)) by (field; lra).
  apply lsum_ge_term; [|apply (in_map (fun e => Rabs (e - c))); assumption].
  intros y Hy. apply in_map_iff in Hy. destruct Hy as (z & <- & _). apply Rabs_pos.
Qed.

Lemma lmean_dev l c w : l <> [] -> (forall x, In x l -> Rabs (x - c) <= w) -> Rabs (lmean l - c) <= w.
Proof.
  intros Hl H. assert (P : 0 < INR (length l)) by (apply lt_0_INR; destruct l; [congruence|simpl; lia]).
  assert (E : lmean l - c = lsum (map (fun x => x - c) l) / INR (length l)).
  { unfold lmean. rewrite lsum_map_minus, map_id, lsum_map_const. field. lra. }
  rewrite E. unfold Rdiv. rewrite Rabs_mult, (Rabs_pos_eq (/ _)) by (left; apply Rinv_0_lt_compat; assumption).
  apply Rmult_le_reg_r with (INR (length l)); [assumption|]. rewrite Rmult_assoc, Rinv_l by lra. rewrite Rmult_1_r.
  clear E Hl P. induction l as [|a l IH]; [unfold lsum; simpl; rewrite Rabs_R0; lra|].
  cbn [map length]. rewrite S_INR. unfold lsum. cbn [fold_right]. fold (lsum (map (fun x => x - c) l)).
  eapply Rle_trans; [apply Rabs_triang|]. specialize (IH ltac:(intros; apply H; right; assumption)).
  pose proof (H a (or_introl eq_refl)). lra.
Qed.

Lemma clip_list_big c w l : (forall e, In e l -> Rabs (e - c) <= w) -> clip_list c w l = l.
Proof.
  intros H. unfold clip_list. rewrite <- (map_id l) at 2. apply map_ext_in. intros e He. apply rclip_inside. auto.
Qed.

(** NaNs are contained with the median centre. *)
Lemma clip_median_nan th s l e : l <> [] -> (forall v, In v s -> v = NaN \/ exists r, v = Fin r) -> filter nonnan s = map Fin l ->
  let w := th * mean_distance (rmedian l) l in
  total_variation_clipping_fn th "median" s e =
  Some (map (fun v => match v with Fin e => Fin (rclip e (rmedian l - w) (rmedian l + w)) | _ => NaN end) s).
Proof.
  intros Hl Hv HF w. unfold total_variation_clipping_fn. simpl. f_equal.
  assert (EM : nanmedian s = Fin (rmedian l)).
  { rewrite <- (nanmedian_fin l Hl). unfold nanmedian. fold nonnan. rewrite HF. fold nonnan.
    replace (filter nonnan (map Fin l)) with (map Fin l) by (symmetry; apply filter_fin). reflexivity. }
  rewrite EM.
  assert (ET : xnanmean (map (fun e => xabs (xsub e (Fin (rmedian l)))) s) = Fin (mean_distance (rmedian l) l)).
  { unfold mean_distance. rewrite <- xnanmean_fin by (destruct l; [congruence|discriminate]).
    unfold xnanmean. rewrite filter_fin. f_equal.
    transitivity (map (fun e => xabs (xsub e (Fin (rmedian l)))) (filter nonnan s)).
    - clear - Hv. induction s as [|v s IH]; [reflexivity|]. cbn [map filter].
      rewrite IH by (intros; apply Hv; right; assumption).
      destruct (Hv v (or_introl eq_refl)) as [->|[r ->]]; reflexivity.
    - rewrite HF, !map_map. reflexivity. }
  rewrite ET. apply map_ext_in. intros v Hin. destruct (Hv v Hin) as [->|[r ->]]; [reflexivity|].
  unfold xsub. cbn [xmul xopp xadd]. rewrite xclip_fin. reflexivity.
Qed.

(** *** Shifting all energies *)
Lemma rsort_shift l c : rsort (map (fun e => e + c) l) = map (fun e => e + c) (rsort l).
Proof.
  assert (I : forall v l, rinsert (v + c) (map (fun e => e + c) l) = map (fun e => e + c) (rinsert v l)).
  { intros v. induction l0 as [|a l0 IH]; [reflexivity|]. cbn [map rinsert].
    replace (Rltb (v + c) (a + c)) with (Rltb v a) by (unfold Rltb; destruct (Rlt_dec v a), (Rlt_dec (v + c) (a + c)); reflexivity || (exfalso; lra)).
    destruct (Rltb v a); [reflexivity|]. rewrite IH. reflexivity. }
  induction l as [|a l IH]; [reflexivity|]. change (rinsert (a + c) (rsort (map (fun e => e + c) l)) = map (fun e => e + c) (rinsert a (rsort l))).
  rewrite IH. apply I.
Qed.

Lemma rmedian_shift l c : l <> [] -> rmedian (map (fun e => e + c) l) = rmedian l + c.
Proof.
  intros Hl. assert (HL : (0 < length (rsort l))%nat).
  { rewrite <- (Permutation_length (rsort_perm l)). destruct l; [congruence|simpl; lia]. }
  unfold rmedian. rewrite rsort_shift, map_length. set (n := length (rsort l)) in *.
  assert (X : forall i, (i < n)%nat -> nth i (map (fun e => e + c) (rsort l)) 0 = nth i (rsort l) 0 + c).
  { intros i Hi. rewrite (nth_indep _ 0 (0 + c)) by (rewrite map_length; assumption). apply (map_nth (fun e => e + c)). }
  rewrite !X; [ring|apply Nat.div_lt; lia|apply Nat.div_lt_upper_bound; lia].
Qed.

Lemma centre_shift cc e l c : l <> [] -> centre_of cc (e + c) (map (fun e => e + c) l) = centre_of cc e l + c.
Proof. intros Hl. unfold centre_of. destruct (String.eqb cc "mean"); [reflexivity|]. apply rmedian_shift. assumption. Qed.

Lemma mean_distance_shift m l c : mean_distance (m + c) (map (fun e => e + c) l) = mean_distance m l.
Proof.
  unfold mean_distance. rewrite map_map. f_equal. apply map_ext. intros. f_equal. ring.
Qed.

Lemma clip_list_shift m w l c : clip_list (m + c) w (map (fun e => e + c) l) = map (fun e => e + c) (clip_list m w l).
Proof.
  unfold clip_list. rewrite !map_map. apply map_ext. intros e. unfold rclip, Rmin, Rmax.
  destruct (Rle_dec (e + c) (m + c - w)), (Rle_dec e (m - w)); try (exfalso; lra);
  repeat destruct (Rle_dec _ _); try (exfalso; lra); lra.
Qed.
