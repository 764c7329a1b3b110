(** * Proofs about distribution over devices and device averages *)
From Coq Require Import Reals List Arith Bool Lra Lia Permutation.
From Verif Require Import XReal Rsum M_mcmc M_distribute S_energy.
Import ListNotations.
Local Open Scope R_scope.

Lemma chunks_concat {A} size ndev (l : list A) : length l = (size * ndev)%nat -> concat (chunks size ndev l) = l.
Proof.
  revert l. induction ndev as [|d IH]; intros l H; simpl.
  - destruct l; [reflexivity|]. simpl in H. lia.
  - rewrite IH; [apply firstn_skipn|]. rewrite skipn_length. nia.
Qed.

Lemma chunks_length {A} size ndev (l : list A) : length (chunks size ndev l) = ndev.
Proof. revert l. induction ndev; intros; simpl; auto. Qed.

Lemma chunks_sizes {A} size ndev (l : list A) : length l = (size * ndev)%nat ->
  forall s, In s (chunks size ndev l) -> length s = size.
Proof.
  revert l. induction ndev as [|d IH]; intros l H s; simpl; [tauto|]. intros [<-|Hs].
  - rewrite firstn_length. nia.
  - apply (IH (skipn size l)); [rewrite skipn_length; nia|assumption].
Qed.

Lemma nth_firstn {A} k (l : list A) i a : (i < k)%nat -> nth i (firstn k l) a = nth i l a.
Proof. revert l i. induction k; intros [|b l] [|i] H; simpl; try lia; try reflexivity. apply IHk. lia. Qed.
Lemma nth_skipn {A} k (l : list A) i a : nth i (skipn k l) a = nth (k + i) l a.
Proof. revert l. induction k; intros [|b l]; simpl; try reflexivity; [destruct i; reflexivity|apply IHk]. Qed.

Lemma chunks_nth {A} size ndev (l : list A) d i (a : A) : (d < ndev)%nat -> (i < size)%nat ->
  nth i (nth d (chunks size ndev l) []) a = nth (d * size + i) l a.
Proof.
  revert l d. induction ndev as [|n IH]; intros l d Hd Hi; [lia|]. destruct d as [|d]; simpl.
  - apply nth_firstn. assumption.
  - rewrite IH by lia. rewrite nth_skipn. f_equal. lia.
Qed.

Lemma reshape_some {A} ndev (l : list A) : (0 < ndev)%nat -> (length l mod ndev = 0)%nat ->
  length l = (length l / ndev * ndev)%nat.
Proof. intros H E. pose proof (Nat.div_mod (length l) ndev ltac:(lia)). lia. Qed.

(** ** Means *)
Lemma xmean_fin l : l <> [] -> xmean (map Fin l) = Fin (lmean l).
Proof.
  intros H. unfold xmean, lmean. rewrite xsum_map_fin, map_length. apply xdiv_fin.
  apply Rgt_not_eq, lt_0_INR. destruct l; [congruence|simpl; lia].
Qed.

Lemma filter_fin l : filter (fun v => negb (isnan v)) (map Fin l) = map Fin l.
Proof. induction l; simpl; congruence. Qed.

Lemma xnanmean_fin l : l <> [] -> xnanmean (map Fin l) = Fin (lmean l).
Proof. intros H. unfold xnanmean. rewrite filter_fin. apply xmean_fin; assumption. Qed.

Lemma lmean_lmeans k (shards : list (list R)) : (0 < k)%nat -> shards <> [] -> (forall s, In s shards -> length s = k) ->
  lmean (map lmean shards) = lmean (concat shards).
Proof.
  intros Hk Hs H.
  assert (L : length (concat shards) = (length shards * k)%nat).
  { clear Hs. induction shards as [|s ss IH]; [reflexivity|]. simpl. rewrite app_length, IH, (H s); [lia|left; reflexivity|].
    intros; apply H; right; assumption. }
  unfold lmean at 1 3. rewrite L, map_length, lsum_concat, mult_INR.
  assert (E : lsum (map lmean shards) = lsum (map lsum shards) / INR k).
  { clear L Hs. induction shards as [|s ss IH]; [simpl; lra|]. cbn [map]. unfold lsum in *. simpl.
    rewrite IH by (intros; apply H; right; assumption). unfold lmean at 1. rewrite (H s) by (left; reflexivity).
    unfold lsum. field. apply Rgt_not_eq, lt_0_INR. assumption. }
  rewrite E. field. split; apply Rgt_not_eq, lt_0_INR; [assumption|]. destruct shards; [congruence|simpl; lia].
Qed.

Lemma evenly_map {A B} (f : A -> B) shards : evenly shards -> evenly (map (map f) shards).
Proof.
  intros (k & Hk & Hs & H). exists k. split; [assumption|]. split.
  - destruct shards; [congruence|discriminate].
  - intros s Hin. apply in_map_iff in Hin. destruct Hin as (s' & <- & Hin). rewrite map_length. auto.
Qed.

Lemma evenly_concat_nonempty {A} (shards : list (list A)) : evenly shards -> concat shards <> [].
Proof.
  intros (k & Hk & Hs & H). destruct shards as [|s ss]; [congruence|]. simpl. specialize (H s (or_introl eq_refl)).
  destruct s; [simpl in H; lia|discriminate].
Qed.

Lemma means_fin b (shards : list (list R)) : evenly shards ->
  mean_over_first_axis b (map (map Fin) shards) = Fin (lmean (concat shards)).
Proof.
  intros (k & Hk & Hs & H). 
  assert (E : map xmean (map (map Fin) shards) = map Fin (map lmean shards) /\
              map xnanmean (map (map Fin) shards) = map Fin (map lmean shards)).
  { clear Hs. induction shards as [|s ss IH]; [split; reflexivity|].
    destruct IH as [I1 I2]; [intros; apply H; right; assumption|]. cbn [map].
    assert (s <> []) by (specialize (H s (or_introl eq_refl)); destruct s; [simpl in H; lia|discriminate]).
    rewrite xmean_fin, xnanmean_fin, I1, I2 by assumption. split; reflexivity. }
  destruct E as [E1 E2]. unfold mean_over_first_axis, mean_all_local_devices, nanmean_all_local_devices.
  rewrite E1, E2, xmean_fin by (destruct shards; [congruence|discriminate]).
  rewrite (lmean_lmeans k) by assumption. destruct b; reflexivity.
Qed.

(** NaN-safe mean with equally many non-NaN entries per device. *)
Lemma filter_concat {A} (f : A -> bool) ll : filter f (concat ll) = concat (map (filter f) ll).
Proof. induction ll as [|l ll IH]; [reflexivity|]. simpl. rewrite filter_app, IH. reflexivity. Qed.

Definition nonnan (v : xr) : bool := negb (isnan v).

Lemma finite_or_nan_filter s : (forall v, In v s -> v = NaN \/ exists r, v = Fin r) ->
  exists l, filter nonnan s = map Fin l.
Proof.
  induction s as [|v s IH]; intros H; [exists []; reflexivity|].
  destruct IH as [l E]; [intros; apply H; right; assumption|].
  destruct (H v (or_introl eq_refl)) as [->|[r ->]]; simpl; [exists l; exact E|exists (r :: l); simpl; congruence].
Qed.

Lemma nanmean_even k (shards : list (list xr)) : (0 < k)%nat -> shards <> [] ->
  (forall s v, In s shards -> In v s -> v = NaN \/ exists r, v = Fin r) ->
  (forall s, In s shards -> length (filter nonnan s) = k) ->
  nanmean_all_local_devices shards = xnanmean (concat shards).
Proof.
  intros Hk Hs Hv Hc.
  assert (E : exists ls, map (filter nonnan) shards = map (map Fin) ls /\ (forall l, In l ls -> length l = k)).
  { clear Hs. induction shards as [|s ss IH]; [exists []; split; [reflexivity|simpl; tauto]|].
    destruct IH as (ls & E1 & E2); [intros; eapply Hv; eauto; right; assumption|intros; apply Hc; right; assumption|].
    destruct (finite_or_nan_filter s) as [l E]; [intros; apply (Hv s); [left; reflexivity|assumption]|].
    exists (l :: ls). split; [simpl; congruence|]. intros l' [<-|Hl]; [|auto].
    rewrite <- (Hc s (or_introl eq_refl)), E, map_length. reflexivity. }
  destruct E as (ls & E1 & E2).
  assert (Hls : ls <> []). { destruct ls; [destruct shards; [congruence|discriminate]|discriminate]. }
  unfold nanmean_all_local_devices, xnanmean at 2. fold nonnan.
  rewrite filter_concat, E1.
  transitivity (mean_all_local_devices (map (map Fin) ls)).
  - unfold mean_all_local_devices. f_equal. rewrite <- E1. rewrite map_map. reflexivity.
  - pose proof (means_fin false ls) as M. unfold mean_over_first_axis in M. rewrite M by (exists k; auto).
    rewrite <- concat_map. rewrite xmean_fin; [reflexivity|]. apply evenly_concat_nonempty. exists k; auto.
Qed.

Lemma lmean_perm l l' : Permutation l l' -> lmean l = lmean l'.
Proof. intros H. unfold lmean. rewrite (lsum_perm _ _ H), (Permutation_length H). reflexivity. Qed.
