(** * Proofs about the time-series statistics *)
From Coq Require Import Reals List Arith Bool Lra Lia.
From Verif Require Import XReal Rsum M_stats S_stats P_fft.
Import ListNotations.
Local Open Scope R_scope.

Lemma INR_pos n : (0 < n)%nat -> 0 < INR n.
Proof. intros; apply lt_0_INR; assumption. Qed.

(** ** C24 *)
Lemma autocov_direct N x i : (i < N)%nat -> autocov N x i = direct_autocov N x i.
Proof.
  intros H. unfold autocov, direct_autocov. rewrite fft_autocov by lia. fold (mean N x).
  change (rmean N x) with (mean N x). rewrite minus_INR by lia. reflexivity.
Qed.

Lemma mean_const n x : (0 < n)%nat -> constant_chain n x -> forall t, (t < n)%nat -> x t = mean n x.
Proof.
  intros Hn H t Ht. unfold mean. rewrite (Rsum_ext n x (fun _ => x t)) by (intros; apply H; assumption).
  rewrite Rsum_const. field. apply Rgt_not_eq, INR_pos; assumption.
Qed.

Lemma sumsq_zero n x m : Rsum n (fun t => (x t - m) * (x t - m)) = 0 -> forall t, (t < n)%nat -> x t = m.
Proof.
  intros H t Ht. assert (E : (x t - m) * (x t - m) = 0).
  { apply (Rsum_zero_terms n (fun t => (x t - m) * (x t - m))); [|assumption|assumption].
    intros; apply Rle_0_sqr. }
  apply Rmult_integral in E. lra.
Qed.

Lemma autocov0_nonneg N x : (0 < N)%nat -> 0 <= direct_autocov N x 0.
Proof.
  intros H. unfold direct_autocov. apply Rmult_le_pos.
  - apply Rsum_nonneg. intros. rewrite Nat.add_0_r. apply Rle_0_sqr.
  - left. apply Rinv_0_lt_compat, INR_pos. lia.
Qed.

Lemma autocov0_zero_iff N x : (0 < N)%nat -> direct_autocov N x 0 = 0 <-> constant_chain N x.
Proof.
  intros H. unfold direct_autocov. rewrite Nat.sub_0_r.
  rewrite (Rsum_ext N _ (fun t => (x t - mean N x) * (x t - mean N x))) by (intros; rewrite Nat.add_0_r; reflexivity).
  pose proof (INR_pos N H) as P. split.
  - intros E. assert (E2 : Rsum N (fun t => (x t - mean N x) * (x t - mean N x)) = 0).
    { unfold Rdiv in E. apply Rmult_integral in E. destruct E as [E|E]; [assumption|].
      exfalso. revert E. apply Rinv_neq_0_compat. lra. }
    intros s t Hs Ht. rewrite (sumsq_zero N x _ E2 s Hs), (sumsq_zero N x _ E2 t Ht). reflexivity.
  - intros C. rewrite Rsum_eq_0; [unfold Rdiv; ring|]. intros i Hi. rewrite <- (mean_const N x H C i Hi). ring.
Qed.

Lemma autocov_constant N x i : (i < N)%nat -> constant_chain N x -> direct_autocov N x i = 0.
Proof.
  intros Hi C. unfold direct_autocov. rewrite Rsum_eq_0; [unfold Rdiv; ring|].
  intros t Ht. rewrite <- (mean_const N x ltac:(lia) C t ltac:(lia)). ring.
Qed.

Lemma mean_affine n x a b : (0 < n)%nat -> mean n (fun t => a * x t + b) = a * mean n x + b.
Proof.
  intros H. pose proof (INR_pos n H). unfold mean. rewrite Rsum_plus, Rsum_scal, Rsum_const. field. lra.
Qed.

Lemma mean_ext n x y : (forall i, (i < n)%nat -> x i = y i) -> mean n x = mean n y.
Proof. intros H. unfold mean. f_equal. apply Rsum_ext; assumption. Qed.

Lemma autocov_affine N x a b i : (i < N)%nat ->
  direct_autocov N (fun t => a * x t + b) i = a ^ 2 * direct_autocov N x i.
Proof.
  intros H. unfold direct_autocov. rewrite mean_affine by lia.
  transitivity (a ^ 2 * Rsum (N - i) (fun t => (x t - mean N x) * (x (t + i)%nat - mean N x)) / INR (N - i)).
  - f_equal. rewrite <- Rsum_scal. apply Rsum_ext. intros t _. ring.
  - unfold Rdiv. ring.
Qed.

Lemma per_chain_nonconst N samples i c : (i < N)%nat -> ~ constant_chain N (fun t => samples t c) ->
  per_chain_autocorr N samples i c =
  Fin (direct_autocov N (fun t => samples t c) i / direct_autocov N (fun t => samples t c) 0).
Proof.
  intros Hi HC. unfold per_chain_autocorr. rewrite !autocov_direct by lia. apply xdiv_fin.
  intros E. apply HC. apply autocov0_zero_iff; [lia|assumption].
Qed.

Lemma per_chain_const N samples i c : (i < N)%nat -> constant_chain N (fun t => samples t c) ->
  per_chain_autocorr N samples i c = NaN.
Proof.
  intros Hi HC. unfold per_chain_autocorr. rewrite !autocov_direct by lia.
  rewrite !autocov_constant by (assumption || lia). apply xdiv_0_0.
Qed.

(** ** C25 *)
(** The same computation on plain reals. *)
Fixpoint r_sums_of_pairs (curve : list R) : list R :=
  match curve with a :: b :: rest => (a + b) :: r_sums_of_pairs rest | _ => [] end.

Fixpoint r_positive_prefix (l : list R) : list R :=
  match l with [] => [] | a :: l => if Rltb a 0 then [] else a :: r_positive_prefix l end.

Fixpoint r_min_accumulate_from (m : R) (l : list R) : list R :=
  match l with [] => [] | a :: l => let m := Rmin m a in m :: r_min_accumulate_from m l end.
Definition r_min_accumulate (l : list R) : list R :=
  match l with [] => [] | a :: l => a :: r_min_accumulate_from a l end.

Definition r_tau (curve : list R) : R :=
  - (1) + 2 * lsum (r_min_accumulate (r_positive_prefix (r_sums_of_pairs curve))).

Lemma positive_prefix_spec l : exists k, (k <= length l)%nat /\ r_positive_prefix l = firstn k l /\
  (forall i, (i < k)%nat -> 0 <= nth i l 0) /\ ((k < length l)%nat -> nth k l 0 < 0).
Proof.
  induction l as [|a l (k & H1 & H2 & H3 & H4)]; simpl.
  - exists O. repeat split; auto; lia.
  - unfold Rltb. destruct (Rlt_dec a 0) as [Ha|Ha].
    + exists O. split; [lia|]. split; [reflexivity|]. split; [lia|]. auto.
    + exists (S k). split; [lia|]. split; [simpl; congruence|]. split.
      * intros [|i] Hi; [lra|]. apply H3; lia.
      * intros Hk. apply H4. lia.
Qed.

Lemma min_accumulate_from_nth l m i : (i < length l)%nat ->
  nth i (r_min_accumulate_from m l) 0 = Rmin m (min_upto (fun j => nth j l 0) i).
Proof.
  revert m i. induction l as [|a l IH]; intros m i Hi; simpl in *; [lia|].
  destruct i as [|i]; [reflexivity|]. rewrite IH by lia.
  rewrite <- Rmin_assoc. f_equal.
  clear. induction i; simpl; [reflexivity|]. rewrite Rmin_assoc, IHi. reflexivity.
Qed.

Lemma min_accumulate_length l : length (r_min_accumulate l) = length l.
Proof.
  destruct l as [|a l]; [reflexivity|]. simpl. f_equal. revert a.
  induction l as [|b l IH]; intros a; simpl; auto.
Qed.

Lemma min_accumulate_nth l i : (i < length l)%nat -> nth i (r_min_accumulate l) 0 = min_upto (fun j => nth j l 0) i.
Proof.
  destruct l as [|a l]; simpl; [lia|]. intros Hi. destruct i as [|i]; [reflexivity|].
  rewrite min_accumulate_from_nth by lia.
  clear. induction i; simpl; [reflexivity|]. rewrite Rmin_assoc, IHi. reflexivity.
Qed.

Lemma min_upto_ext f g i : (forall j, (j <= i)%nat -> f j = g j) -> min_upto f i = min_upto g i.
Proof. induction i; intros H; simpl; [apply H; lia|]. rewrite IHi, H; auto. Qed.

Lemma min_upto_le f i j : (j <= i)%nat -> min_upto f i <= f j.
Proof.
  induction i; intros H; simpl.
  - assert (j = O) by lia. subst. lra.
  - destruct (Nat.eq_dec j (S i)) as [->|]; [apply Rmin_r|]. eapply Rle_trans; [apply Rmin_l|]. apply IHi. lia.
Qed.

Lemma min_upto_attained f i : exists j, (j <= i)%nat /\ min_upto f i = f j.
Proof.
  induction i as [|i (j & Hj & E)]; simpl; [exists O; auto|].
  unfold Rmin. destruct (Rle_dec (min_upto f i) (f (S i))); [exists j|exists (S i)]; auto.
Qed.

Lemma pairs_length l : length (r_sums_of_pairs l) = Nat.div2 (length l).
Proof.
  assert (H : forall n l, (length l <= n)%nat -> length (r_sums_of_pairs l) = Nat.div2 (length l)).
  { induction n; intros m Hm; [destruct m; [reflexivity|simpl in Hm; lia]|].
    destruct m as [|a [|b m]]; try reflexivity. simpl in *. f_equal. apply IHn. lia. }
  eapply H; eauto.
Qed.

Lemma pairs_nth l i : (i < Nat.div2 (length l))%nat ->
  nth i (r_sums_of_pairs l) 0 = nth (2 * i) l 0 + nth (2 * i + 1) l 0.
Proof.
  assert (H : forall n l i, (length l <= n)%nat -> (i < Nat.div2 (length l))%nat ->
    nth i (r_sums_of_pairs l) 0 = nth (2 * i) l 0 + nth (2 * i + 1) l 0).
  { induction n; intros m j Hm Hj; [destruct m; simpl in *; lia|].
    destruct m as [|a [|b m]]; simpl in Hj; try lia.
    destruct j as [|j]; [reflexivity|].
    change (nth (S j) (r_sums_of_pairs (a :: b :: m)) 0) with (nth j (r_sums_of_pairs m) 0).
    rewrite IHn by (simpl in *; lia).
    replace (2 * S j)%nat with (S (S (2 * j))) by lia.
    replace (S (S (2 * j)) + 1)%nat with (S (S (2 * j + 1))) by lia. reflexivity. }
  intros; eapply H; eauto.
Qed.

Lemma tau_spec curve :
  let pair i := nth (2 * i) curve 0 + nth (2 * i + 1) curve 0 in
  let npairs := Nat.div2 (length curve) in
  exists k, (k <= npairs)%nat /\ (forall i, (i < k)%nat -> 0 <= pair i) /\ ((k < npairs)%nat -> pair k < 0) /\
    r_tau curve = - (1) + 2 * Rsum k (fun i => min_upto pair i).
Proof.
  intros pair npairs.
  destruct (positive_prefix_spec (r_sums_of_pairs curve)) as (k & H1 & H2 & H3 & H4).
  rewrite pairs_length in H1, H4. fold npairs in H1, H4.
  exists k. split; [assumption|]. split; [|split].
  - intros i Hi. unfold pair. rewrite <- pairs_nth by (fold npairs; lia). apply H3; assumption.
  - intros Hk. unfold pair. rewrite <- pairs_nth by assumption. apply H4; assumption.
  - unfold r_tau. rewrite H2, lsum_nth, min_accumulate_length, firstn_length, pairs_length. fold npairs.
    rewrite Nat.min_l by assumption. do 2 f_equal. apply Rsum_ext. intros i Hi.
    rewrite min_accumulate_nth by (rewrite firstn_length, pairs_length; fold npairs; lia).
    apply min_upto_ext. intros j Hj. unfold pair. rewrite <- pairs_nth by (fold npairs; lia).
    transitivity (nth j (firstn k (r_sums_of_pairs curve) ++ skipn k (r_sums_of_pairs curve)) 0).
    + rewrite app_nth1 by (rewrite firstn_length, pairs_length; fold npairs; lia). reflexivity.
    + rewrite firstn_skipn. reflexivity.
Qed.

Lemma tau_ge curve : - (1) <= r_tau curve.
Proof.
  destruct (tau_spec curve) as (k & _ & Hp & _ & ->).
  assert (0 <= Rsum k (fun i => min_upto (fun i => nth (2 * i) curve 0 + nth (2 * i + 1) curve 0) i)).
  { apply Rsum_nonneg. intros i Hi. destruct (min_upto_attained (fun i => nth (2 * i) curve 0 + nth (2 * i + 1) curve 0) i) as (j & Hj & ->).
    apply Hp. lia. }
  lra.
Qed.

Lemma tau_ge_1 r0 r1 rest : 1 <= r0 + r1 -> 1 <= r_tau (r0 :: r1 :: rest).
Proof.
  intros H. destruct (tau_spec (r0 :: r1 :: rest)) as (k & Hk & Hp & Hn & ->).
  assert (Hk0 : (0 < k)%nat).
  { destruct k; [|lia]. exfalso. assert (X : (0 < Nat.div2 (length (r0 :: r1 :: rest)))%nat) by (simpl; lia).
    specialize (Hn X). simpl in Hn. lra. }
  destruct k as [|k]; [lia|]. rewrite Rsum_S_l. cbn [min_upto].
  assert (0 <= Rsum k (fun i => min_upto (fun i => nth (2 * i) (r0 :: r1 :: rest) 0 + nth (2 * i + 1) (r0 :: r1 :: rest) 0) (S i))).
  { apply Rsum_nonneg. intros i Hi. destruct (min_upto_attained (fun i => nth (2 * i) (r0 :: r1 :: rest) 0 + nth (2 * i + 1) (r0 :: r1 :: rest) 0) (S i)) as (j & Hj & ->).
    apply Hp. lia. }
  simpl nth in *. simpl. simpl in H0. lra.
Qed.

Lemma tau_negative_first r0 r1 rest : r0 + r1 < 0 -> r_tau (r0 :: r1 :: rest) = - (1).
Proof.
  intros H. unfold r_tau. simpl. unfold Rltb. destruct (Rlt_dec (r0 + r1) 0); [|lra]. simpl. ring.
Qed.

(** Entries from the first negative pair on do not matter. *)
Lemma positive_prefix_app l a r r' : a < 0 -> r_positive_prefix (l ++ a :: r) = r_positive_prefix (l ++ a :: r').
Proof.
  intros H. induction l as [|b l IH]; simpl.
  - unfold Rltb. destruct (Rlt_dec a 0); [reflexivity|lra].
  - destruct (Rltb b 0); [reflexivity|]. rewrite IH. reflexivity.
Qed.

Lemma pairs_app l l' : Nat.Even (length l) -> r_sums_of_pairs (l ++ l') = r_sums_of_pairs l ++ r_sums_of_pairs l'.
Proof.
  intros [n E]. revert l E. induction n; intros l E; [destruct l; [reflexivity|discriminate]|].
  destruct l as [|a [|b l]]; simpl in E; try lia. simpl. f_equal. apply IHn. lia.
Qed.

Lemma tau_tail l a b r r' : Nat.Even (length l) -> a + b < 0 ->
  r_tau (l ++ a :: b :: r) = r_tau (l ++ a :: b :: r').
Proof.
  intros HE H. unfold r_tau. rewrite !pairs_app by assumption. simpl.
  rewrite (positive_prefix_app _ _ (r_sums_of_pairs r) (r_sums_of_pairs r') H). reflexivity.
Qed.

Lemma tau_odd_last l a : Nat.Even (length l) -> r_tau (l ++ [a]) = r_tau l.
Proof. intros HE. unfold r_tau. rewrite pairs_app by assumption. simpl. rewrite app_nil_r. reflexivity. Qed.


(** The model on finite curves. *)
Lemma xltb_fin0 a : xltb (Fin a) (Fin 0) = Rltb a 0.
Proof. reflexivity. Qed.

Lemma xmin_fin a b : xmin (Fin a) (Fin b) = Fin (Rmin a b).
Proof.
  unfold xmin. simpl. unfold Rltb, Rmin. destruct (Rlt_dec b a), (Rle_dec a b); try reflexivity; exfalso; lra.
Qed.

Lemma tau_fin curve : tau (map Fin curve) = Fin (r_tau curve).
Proof.
  assert (P : forall n l, (length l <= n)%nat -> sums_of_pairs (map Fin l) = map Fin (r_sums_of_pairs l)).
  { induction n; intros l Hl; [destruct l; [reflexivity|simpl in Hl; lia]|].
    destruct l as [|a [|b l]]; try reflexivity. simpl in *. rewrite IHn by lia. reflexivity. }
  assert (Q : forall l, positive_prefix (map Fin l) = map Fin (r_positive_prefix l)).
  { induction l as [|a l IH]; [reflexivity|]. cbn [map positive_prefix r_positive_prefix]. rewrite xltb_fin0.
    destruct (Rltb a 0); [reflexivity|]. rewrite IH. reflexivity. }
  assert (A : forall l m, min_accumulate_from (Fin m) (map Fin l) = map Fin (r_min_accumulate_from m l)).
  { induction l as [|a l IH]; intros m; [reflexivity|].
    cbn [map min_accumulate_from r_min_accumulate_from]. rewrite xmin_fin, IH. reflexivity. }
  assert (A' : forall l, min_accumulate (map Fin l) = map Fin (r_min_accumulate l)).
  { destruct l; [reflexivity|]. simpl. rewrite A. reflexivity. }
  unfold tau, r_tau. rewrite (P (length curve)), Q, A', xsum_map_fin by lia. reflexivity.
Qed.

(** ** C26 *)
Lemma xsum_n_fin n f : xsum_n n (fun i => Fin (f i)) = Fin (Rsum n f).
Proof.
  unfold xsum_n. rewrite <- (map_map f Fin), xsum_map_fin. f_equal.
  change (fold_right Rplus 0 (map f (seq 0 n))) with (lsum (map f (seq 0 n))). apply lsum_map_seq.
Qed.

Lemma xmean_n_fin n f : (0 < n)%nat -> xmean_n n (fun i => Fin (f i)) = Fin (mean n f).
Proof.
  intros H. unfold xmean_n. rewrite xsum_n_fin. apply xdiv_fin. apply Rgt_not_eq, INR_pos; assumption.
Qed.

Lemma xmean_n_ext n f g : (forall i, (i < n)%nat -> f i = g i) -> xmean_n n f = xmean_n n g.
Proof.
  intros H. unfold xmean_n, xsum_n. f_equal. f_equal. apply map_ext_in. intros i Hi. apply H. apply in_seq in Hi. lia.
Qed.

Lemma var1_fin n f : (2 <= n)%nat -> var1 n f = Fin (sample_var n f).
Proof.
  intros H. unfold var1, sample_var. change (rmean n f) with (mean n f).
  replace (INR n - 1) with (INR (n - 1)) by (rewrite minus_INR by lia; reflexivity).
  apply xdiv_fin. apply Rgt_not_eq, INR_pos. lia.
Qed.

Lemma var1_one f : var1 1 f = NaN.
Proof.
  unfold var1, rmean. simpl.
  replace (0 + (f O - (0 + f O) / 1) * ((f O - (0 + f O) / 1) * 1)) with 0 by field.
  replace (1 - 1) with 0 by ring. apply xdiv_0_0.
Qed.

Lemma sample_var_nonneg n f : (2 <= n)%nat -> 0 <= sample_var n f.
Proof.
  intros H. apply Rmult_le_pos; [apply Rsum_nonneg; intros; apply pow2_ge_0|].
  left. apply Rinv_0_lt_compat, INR_pos. lia.
Qed.

Lemma sample_var_pos n f : (2 <= n)%nat -> ~ constant_chain n f -> 0 < sample_var n f.
Proof.
  intros H HC. destruct (Rle_lt_or_eq_dec _ _ (sample_var_nonneg n f H)) as [P|E]; [assumption|].
  exfalso. apply HC. symmetry in E. unfold sample_var in E. apply Rmult_integral in E. destruct E as [E|E].
  - rewrite (Rsum_ext n _ (fun t => (f t - mean n f) * (f t - mean n f))) in E by (intros; ring).
    intros s t Hs Ht. rewrite (sumsq_zero _ _ _ E s Hs), (sumsq_zero _ _ _ E t Ht). reflexivity.
  - exfalso. revert E. apply Rinv_neq_0_compat. apply Rgt_not_eq, INR_pos. lia.
Qed.

Lemma mean_pos n f : (0 < n)%nat -> (forall i, (i < n)%nat -> 0 < f i) -> 0 < mean n f.
Proof.
  intros Hn H. apply Rmult_lt_0_compat; [|apply Rinv_0_lt_compat, INR_pos; assumption].
  destruct n; [lia|]. cbn [Rsum]. assert (0 <= Rsum n f) by (apply Rsum_nonneg; intros; left; apply H; lia).
  specialize (H n ltac:(lia)). lra.
Qed.

Section Multi.
Variables (N M : nat) (x : nat -> nat -> R).
Hypothesis HN : (2 <= N)%nat.
Hypothesis HM : (2 <= M)%nat.

Lemma within_fin : within_chain N M x = Fin (W N M x).
Proof.
  unfold within_chain, W. rewrite (xmean_n_ext M _ (fun c => Fin (sample_var N (fun t => x t c)))).
  - apply xmean_n_fin. lia.
  - intros; apply var1_fin; assumption.
Qed.
Lemma between_fin : between_chain N M x = Fin (B N M x).
Proof. unfold between_chain, B. apply (var1_fin M (fun c => mean N (fun t => x t c))). assumption. Qed.

Lemma overall_fin : overall_var N M x = Fin (V N M x).
Proof.
  unfold overall_var, V. rewrite within_fin, between_fin. cbn [xmul].
  rewrite xdiv_fin by (apply Rgt_not_eq, INR_pos; lia). cbn [xadd].
  rewrite minus_INR by lia. reflexivity.
Qed.

Hypothesis HC : forall c, (c < M)%nat -> ~ constant_chain N (fun t => x t c).

Lemma W_pos : 0 < W N M x.
Proof. apply mean_pos; [lia|]. intros; apply sample_var_pos; auto. Qed.
Lemma B_nonneg : 0 <= B N M x.
Proof. apply sample_var_nonneg; assumption. Qed.
Lemma V_pos : 0 < V N M x.
Proof.
  unfold V. pose proof W_pos. pose proof B_nonneg. pose proof (INR_pos (N - 1) ltac:(lia)). pose proof (INR_pos N ltac:(lia)).
  assert (0 < W N M x * INR (N - 1) / INR N).
  { apply Rmult_lt_0_compat; [apply Rmult_lt_0_compat; assumption|apply Rinv_0_lt_compat; assumption]. }
  lra.
Qed.

Lemma multi_fin i : (i < N)%nat -> multi_chain_autocorr N M x i = Fin (combined_autocorr N M x i).
Proof.
  intros Hi. unfold multi_chain_autocorr, combined_autocorr. rewrite within_fin, overall_fin.
  rewrite (xmean_n_ext M _ (fun c => Fin (sample_var N (fun t => x t c) *
     (direct_autocov N (fun t => x t c) i / direct_autocov N (fun t => x t c) 0)))).
  - rewrite xmean_n_fin by lia. unfold xsub. cbn [xopp xadd].
    rewrite xdiv_fin by (apply Rgt_not_eq, V_pos). reflexivity.
  - intros c Hc. rewrite var1_fin by assumption. rewrite per_chain_nonconst by auto. reflexivity.
Qed.

Lemma combined_0 : combined_autocorr N M x 0 = 1.
Proof.
  unfold combined_autocorr.
  rewrite (mean_ext M _ (fun c => sample_var N (fun t => x t c))).
  - fold (W N M x). pose proof V_pos. field. lra.
  - intros c Hc. unfold Rdiv. rewrite Rinv_r; [ring|]. intros E. apply (HC c Hc). apply autocov0_zero_iff; [lia|assumption].
Qed.
End Multi.

Lemma sample_var_affine n f a b : (2 <= n)%nat -> sample_var n (fun i => a * f i + b) = a ^ 2 * sample_var n f.
Proof.
  intros H. unfold sample_var. rewrite mean_affine by lia.
  transitivity (a ^ 2 * Rsum n (fun i => (f i - mean n f) ^ 2) / INR (n - 1)).
  - f_equal. rewrite <- Rsum_scal. apply Rsum_ext. intros; ring.
  - unfold Rdiv. ring.
Qed.

Lemma sample_var_ext n f g : (forall i, (i < n)%nat -> f i = g i) -> sample_var n f = sample_var n g.
Proof.
  intros H. unfold sample_var. rewrite (mean_ext n f g H). f_equal. apply Rsum_ext. intros i Hi. rewrite H by assumption. reflexivity.
Qed.

Lemma W_affine N M x a b : (2 <= N)%nat -> (2 <= M)%nat -> W N M (fun t c => a * x t c + b) = a ^ 2 * W N M x.
Proof.
  intros HN HM. unfold W. rewrite (mean_ext M _ (fun c => a ^ 2 * sample_var N (fun t => x t c) + 0)).
  - rewrite mean_affine by lia. ring.
  - intros c _. rewrite sample_var_affine by assumption. ring.
Qed.
Lemma B_affine N M x a b : (2 <= N)%nat -> (2 <= M)%nat -> B N M (fun t c => a * x t c + b) = a ^ 2 * B N M x.
Proof.
  intros HN HM. unfold B. rewrite <- (sample_var_affine M _ a b) by assumption. apply sample_var_ext.
  intros c _. apply mean_affine. lia.
Qed.
Lemma V_affine N M x a b : (2 <= N)%nat -> (2 <= M)%nat -> V N M (fun t c => a * x t c + b) = a ^ 2 * V N M x.
Proof. intros HN HM. unfold V. rewrite W_affine, B_affine by assumption. unfold Rdiv. ring. Qed.

Lemma combined_affine N M x a b i : (2 <= N)%nat -> (2 <= M)%nat -> (i < N)%nat -> a <> 0 ->
  (forall c, (c < M)%nat -> ~ constant_chain N (fun t => x t c)) ->
  combined_autocorr N M (fun t c => a * x t c + b) i = combined_autocorr N M x i.
Proof.
  intros HN HM Hi Ha HC. unfold combined_autocorr. rewrite W_affine, V_affine by assumption.
  rewrite (mean_ext M (fun c => sample_var N (fun t => a * x t c + b) * _)
    (fun c => a ^ 2 * (sample_var N (fun t => x t c) * (direct_autocov N (fun t => x t c) i / direct_autocov N (fun t => x t c) 0)) + 0)).
  - rewrite mean_affine by lia. pose proof (V_pos N M x HN HM HC). field. split; [lra|assumption].
  - intros c Hc. rewrite sample_var_affine by assumption. rewrite !autocov_affine by lia.
    assert (direct_autocov N (fun t => x t c) 0 <> 0).
    { intros E. apply (HC c Hc). apply autocov0_zero_iff; [lia|assumption]. }
    field. split; assumption.
Qed.

(** One chain: everything is NaN. *)
Lemma one_chain_nan N x : overall_var N 1 x = NaN /\ forall i, multi_chain_autocorr N 1 x i = NaN.
Proof.
  assert (E : overall_var N 1 x = NaN).
  { unfold overall_var, between_chain. rewrite var1_one. apply xadd_nan_r. }
  split; [assumption|]. intros i. unfold multi_chain_autocorr. rewrite E, xdiv_nan_r. reflexivity.
Qed.

Lemma xmean_n_nan n f c : (c < n)%nat -> f c = NaN -> xmean_n n f = NaN.
Proof.
  intros Hc E. unfold xmean_n, xsum_n. rewrite xsum_nan; [apply xdiv_nan_l|].
  rewrite <- E. apply in_map, in_seq. lia.
Qed.

Lemma const_chain_nan N M x c : (2 <= N)%nat -> (2 <= M)%nat -> (c < M)%nat ->
  constant_chain N (fun t => x t c) -> forall i, (i < N)%nat -> multi_chain_autocorr N M x i = NaN.
Proof.
  intros HN HM Hc C i Hi. unfold multi_chain_autocorr.
  rewrite (xmean_n_nan M _ c Hc).
  - rewrite within_fin by assumption. unfold xsub. cbn [xopp xadd]. rewrite xdiv_nan_l. reflexivity.
  - rewrite (per_chain_const N x i c Hi C). apply xmul_nan_r.
Qed.

(** ** The summary *)
Lemma mean_const_fun n a : (0 < n)%nat -> mean n (fun _ => a) = a.
Proof. intros H. pose proof (INR_pos n H). unfold mean. rewrite Rsum_const. field. lra. Qed.

Lemma summary_fin N M x : (2 <= N)%nat -> (2 <= M)%nat ->
  (forall c, (c < M)%nat -> ~ constant_chain N (fun t => x t c)) ->
  exists t, iac (get_stats_summary N M x) = Fin t /\ tau (map Fin (map (combined_autocorr N M x) (seq 0 N))) = Fin t /\
    variance (get_stats_summary N M x) = Fin (V N M x) /\
    average (get_stats_summary N M x) = Fin (mean N (fun t => mean M (fun c => x t c))) /\
    std_err (get_stats_summary N M x) = xsqrt (Fin (t * V N M x / INR (N * M))).
Proof.
  intros HN HM HC. exists (r_tau (map (combined_autocorr N M x) (seq 0 N))).
  assert (E : iac (get_stats_summary N M x) = Fin (r_tau (map (combined_autocorr N M x) (seq 0 N)))).
  { cbn [iac get_stats_summary]. rewrite <- tau_fin. f_equal. rewrite map_map. apply map_ext_in.
    intros i Hi. apply in_seq in Hi. apply multi_fin; auto. lia. }
  split; [exact E|]. split; [apply tau_fin|]. split; [apply overall_fin; assumption|]. split.
  - cbn [average get_stats_summary]. rewrite (xmean_n_ext N _ (fun t => Fin (mean M (fun c => x t c)))).
    + apply xmean_n_fin. lia.
    + intros; apply xmean_n_fin. lia.
  - change (std_err (get_stats_summary N M x)) with
      (xsqrt (xdiv (xmul (iac (get_stats_summary N M x)) (overall_var N M x)) (Fin (INR (N * M))))).
    rewrite E, overall_fin by assumption. cbn [xmul]. rewrite xdiv_fin; [reflexivity|].
    apply Rgt_not_eq, INR_pos. nia.
Qed.

Lemma grand_mean N M x : (0 < N)%nat -> (0 < M)%nat ->
  mean N (fun t => mean M (fun c => x t c)) = Rsum N (fun t => Rsum M (fun c => x t c)) / INR (N * M).
Proof.
  intros HN HM. pose proof (INR_pos N HN). pose proof (INR_pos M HM). unfold mean, Rdiv.
  rewrite <- Rsum_scal_r at 1. rewrite mult_INR.
  rewrite <- Rsum_scal_r. apply Rsum_ext. intros. field. split; lra.
Qed.

(** A chain for which tau is -1. *)
Definition bad_chain (t : nat) : R := nth t [1; -(2); 2; -(1)] 0.

Lemma bad_chain_iac : iac (get_stats_summary 4 2 (fun t _ => bad_chain t)) = Fin (- (1)) /\
  std_err (get_stats_summary 4 2 (fun t _ => bad_chain t)) = NaN.
Proof.
  assert (HC : forall c, (c < 2)%nat -> ~ constant_chain 4 (fun t => bad_chain t)).
  { intros c _ H. specialize (H 0%nat 1%nat ltac:(lia) ltac:(lia)). unfold bad_chain in H. simpl in H. lra. }
  destruct (summary_fin 4 2 (fun t _ => bad_chain t) ltac:(lia) ltac:(lia) HC) as (t & H1 & H2 & _ & _ & H5).
  assert (C0 : combined_autocorr 4 2 (fun t _ => bad_chain t) 0 = 1) by (apply combined_0; auto).
  assert (EW : W 4 2 (fun t _ => bad_chain t) = 10 / 3).
  { unfold W. rewrite mean_const_fun by lia. unfold sample_var, mean, bad_chain. simpl. field. }
  assert (EB : B 4 2 (fun t _ => bad_chain t) = 0).
  { unfold B, sample_var. rewrite mean_const_fun by lia. simpl. field. }
  assert (EV : V 4 2 (fun t _ => bad_chain t) = 5 / 2).
  { unfold V. rewrite EW, EB. simpl. field. }
  assert (C1 : combined_autocorr 4 2 (fun t _ => bad_chain t) 1 = - (79 / 45)).
  { unfold combined_autocorr. rewrite EW, EV, mean_const_fun by lia.
    unfold sample_var, direct_autocov, mean, bad_chain. simpl. field. }
  rewrite tau_fin in H2. cbn [seq map] in H2. rewrite tau_negative_first in H2 by (rewrite C0, C1; lra).
  injection H2 as H2. subst t. split; [exact H1|]. rewrite H5, EV. unfold xsqrt.
  destruct (Rlt_dec (-(1) * (5 / 2) / INR (4 * 2)) 0) as [|n]; [reflexivity|]. exfalso. apply n. simpl. lra.
Qed.

(** Entries from the first negative pair on do not matter, even if they are NaN. *)
Lemma xtau_tail l a b r r' : Nat.Even (length l) -> xltb (xadd a b) (Fin 0) = true ->
  tau (l ++ a :: b :: r) = tau (l ++ a :: b :: r').
Proof.
  intros HE H.
  assert (P : forall l', sums_of_pairs (l ++ l') = sums_of_pairs l ++ sums_of_pairs l').
  { intros l'. destruct HE as [n E]. clear H. revert l E. induction n; intros l E; [destruct l; [reflexivity|discriminate]|].
    destruct l as [|c [|d l]]; simpl in E; try lia. simpl. f_equal. apply IHn. lia. }
  assert (Q : forall l c s s', xltb c (Fin 0) = true -> positive_prefix (l ++ c :: s) = positive_prefix (l ++ c :: s')).
  { clear. intros l c s s' H. induction l as [|d l IH]; cbn [app positive_prefix].
    - rewrite H. reflexivity.
    - destruct (xltb d (Fin 0)); [reflexivity|]. rewrite IH. reflexivity. }
  unfold tau. rewrite !P. cbn [sums_of_pairs]. rewrite (Q _ _ (sums_of_pairs r) (sums_of_pairs r') H). reflexivity.
Qed.
