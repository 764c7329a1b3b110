(** * Properties C24-C26: autocorrelation and error bars *)
From Coq Require Import Reals List Arith Bool Lra Lia.
From Verif Require Import XReal Rsum M_stats S_stats P_fft P_stats.
Import ListNotations.
Local Open Scope R_scope.

(** ** C24 *)
(** The curve computed through the zero-padded FFT is the direct autocorrelation, for every chain of
    every length; lag 0 is 1; shifting and rescaling do not change it.  A constant chain gives NaN. *)
Theorem C24_fft_is_direct : forall N (samples : nat -> nat -> R) i c, (i < N)%nat ->
  let x t := samples t c in
  (~ constant_chain N x ->
     per_chain_autocorr N samples i c = Fin (direct_autocov N x i / direct_autocov N x 0) /\
     per_chain_autocorr N samples 0 c = Fin 1 /\
     (forall a b, a <> 0 -> per_chain_autocorr N (fun t c => a * samples t c + b) i c = per_chain_autocorr N samples i c)) /\
  (constant_chain N x -> per_chain_autocorr N samples i c = NaN).
Proof.
  intros N samples i c Hi x. split.
  - intros HC. assert (H0 : direct_autocov N x 0 <> 0).
    { intros E. apply HC. apply autocov0_zero_iff; [lia|assumption]. }
    split; [apply per_chain_nonconst; assumption|]. split.
    + rewrite per_chain_nonconst by (assumption || lia). f_equal. unfold Rdiv. apply Rinv_r. exact H0.
    + intros a b Ha. rewrite !per_chain_nonconst; try assumption.
      * rewrite !autocov_affine by lia. f_equal. fold x. field. split; assumption.
      * intros C. apply HC. intros s t Hs Ht. specialize (C s t Hs Ht). simpl in C.
        apply (Rmult_eq_reg_l a); [|assumption]. unfold x. lra.
  - intros HC. apply per_chain_const; assumption.
Qed.
Print Assumptions C24_fft_is_direct.

Example C24_example : (2 < 3)%nat /\ ~ constant_chain 3 (fun t => INR (t * t)) /\
  per_chain_autocorr 3 (fun t _ => INR (t * t)) 2 0 = Fin (- (35 / 26)).
Proof.
  assert (H : ~ constant_chain 3 (fun t => INR (t * t))).
  { intros H. specialize (H 0%nat 1%nat ltac:(lia) ltac:(lia)). simpl in H. lra. }
  split; [lia|]. split; [exact H|].
  destruct (C24_fft_is_direct 3 (fun t _ => INR (t * t)) 2 0%nat ltac:(lia)) as [[-> _] _]; [exact H|].
  f_equal. unfold direct_autocov, mean. simpl. field.
Qed.

(** ** C25 *)
(** tau of a finite curve: with k the number of pair sums before the first negative one, tau is -1
    plus twice the sum of the running minima of those k pair sums; an odd last entry is ignored. *)
Theorem C25_tau_is_initial_minimum_sequence : forall curve : list R,
  let pair i := nth (2 * i) curve 0 + nth (2 * i + 1) curve 0 in
  let npairs := Nat.div2 (length curve) in
  exists k, (k <= npairs)%nat /\ (forall i, (i < k)%nat -> 0 <= pair i) /\ ((k < npairs)%nat -> pair k < 0) /\
    tau (map Fin curve) = Fin (- (1) + 2 * Rsum k (fun i => min_upto pair i)).
Proof.
  intros curve pair npairs. destruct (tau_spec curve) as (k & H1 & H2 & H3 & H4). exists k.
  rewrite tau_fin, H4. auto.
Qed.
Print Assumptions C25_tau_is_initial_minimum_sequence.

(** The running minimum really is the minimum. *)
Theorem C25_min_upto_is_minimum : forall f i, (forall j, (j <= i)%nat -> min_upto f i <= f j) /\
  exists j, (j <= i)%nat /\ min_upto f i = f j.
Proof. intros f i. split; [intros; apply min_upto_le; assumption|apply min_upto_attained]. Qed.
Print Assumptions C25_min_upto_is_minimum.

Theorem C25_tau_bounds : forall curve, exists t, tau (map Fin curve) = Fin t /\ - (1) <= t /\
  forall r1 rest, curve = 1 :: r1 :: rest -> (0 <= r1 -> 1 <= t) /\ (1 + r1 < 0 -> t = - (1)).
Proof.
  intros curve. exists (r_tau curve). split; [apply tau_fin|]. split; [apply tau_ge|].
  intros r1 rest ->. split; intros H; [apply tau_ge_1; lra|apply tau_negative_first; assumption].
Qed.
Print Assumptions C25_tau_bounds.

(** Everything after the first negative pair is irrelevant, even NaNs. *)
Theorem C25_tail_irrelevant : forall l a b r r', Nat.Even (length l) -> xltb (xadd a b) (Fin 0) = true ->
  tau (l ++ a :: b :: r) = tau (l ++ a :: b :: r').
Proof. exact xtau_tail. Qed.
Print Assumptions C25_tail_irrelevant.

(** The summary of an evaluation: which numbers are reported, and that the error bar is the root of
    tau * variance / (number of samples), hence NaN whenever tau is negative. *)
Theorem C25_summary : forall N M (x : nat -> nat -> R), (2 <= N)%nat -> (2 <= M)%nat ->
  (forall c, (c < M)%nat -> ~ constant_chain N (fun t => x t c)) ->
  exists t, tau (map Fin (map (combined_autocorr N M x) (seq 0 N))) = Fin t /\
    get_stats_summary N M x =
      {| average := Fin (Rsum N (fun t => Rsum M (fun c => x t c)) / INR (N * M));
         variance := Fin (V N M x);
         std_err := if Rlt_dec t 0 then NaN else Fin (sqrt (t * V N M x / INR (N * M)));
         iac := Fin t |}.
Proof.
  intros N M x HN HM HC. destruct (summary_fin N M x HN HM HC) as (t & H1 & H2 & H3 & H4 & H5).
  exists t. split; [exact H2|]. destruct (get_stats_summary N M x) as [av va se ia] eqn:E. cbn [average variance std_err iac] in *.
  subst. rewrite grand_mean by lia. f_equal.
  pose proof (V_pos N M x HN HM HC) as HV. pose proof (INR_pos (N * M) ltac:(nia)) as HP.
  unfold xsqrt. destruct (Rlt_dec t 0) as [Hn|Hn], (Rlt_dec (t * V N M x / INR (N * M)) 0) as [Hs|Hs]; try reflexivity; exfalso.
  - apply Hs. apply Rmult_lt_reg_r with (INR (N * M)); [assumption|]. unfold Rdiv.
    rewrite Rmult_assoc, Rinv_l by lra. nra.
  - apply Hn. apply Rmult_lt_reg_r with (V N M x / INR (N * M)).
    + apply Rmult_lt_0_compat; [assumption|apply Rinv_0_lt_compat; assumption].
    + unfold Rdiv in *. lra.
Qed.
Print Assumptions C25_summary.

(** "The error bar of an evaluation with non-constant chains is a number" is false. *)
Theorem C25_error_bar_is_number_refuted : ~ forall N M (x : nat -> nat -> R), (2 <= N)%nat -> (2 <= M)%nat ->
  (forall c, (c < M)%nat -> ~ constant_chain N (fun t => x t c)) ->
  exists s, std_err (get_stats_summary N M x) = Fin s.
Proof.
  intros H. destruct (H 4%nat 2%nat (fun t _ => bad_chain t) ltac:(lia) ltac:(lia)) as [s E].
  - intros c _ C. specialize (C 0%nat 1%nat ltac:(lia) ltac:(lia)). unfold bad_chain in C. simpl in C. lra.
  - rewrite (proj2 bad_chain_iac) in E. discriminate.
Qed.
Print Assumptions C25_error_bar_is_number_refuted.

Example C25_example : tau (map Fin [1; 1/2; 1/4; 1/2; 1/8; -(1/2); 7]) = Fin (7 / 2).
Proof.
  destruct (C25_tau_is_initial_minimum_sequence [1; 1/2; 1/4; 1/2; 1/8; -(1/2); 7]) as (k & H1 & H2 & H3 & ->).
  simpl in H1. assert (k = 2%nat) as ->.
  { destruct k as [|[|[|[|k]]]]; [| |reflexivity| |lia]; exfalso.
    - specialize (H3 ltac:(simpl; lia)). simpl in H3. lra.
    - specialize (H3 ltac:(simpl; lia)). simpl in H3. lra.
    - specialize (H2 2%nat ltac:(lia)). simpl in H2. lra. }
  f_equal. simpl. unfold Rmin. destruct (Rle_dec (1 + 1/2) (1/4 + 1/2)); lra.
Qed.

(** ** C26 *)
(** Two or more chains of two or more samples: the combined variance is within*(N-1)/N + between and is
    non-negative; if no chain is constant it is positive, the curve is the combined autocorrelation, and
    lag 0 is 1. *)
Theorem C26_multi_chain : forall N M (x : nat -> nat -> R), (2 <= N)%nat -> (2 <= M)%nat ->
  overall_var N M x = Fin (W N M x * INR (N - 1) / INR N + B N M x) /\
  0 <= W N M x * INR (N - 1) / INR N + B N M x /\
  ((forall c, (c < M)%nat -> ~ constant_chain N (fun t => x t c)) ->
     0 < W N M x * INR (N - 1) / INR N + B N M x /\
     multi_chain_autocorr N M x 0 = Fin 1 /\
     (forall i, (i < N)%nat -> multi_chain_autocorr N M x i = Fin (combined_autocorr N M x i))) /\
  (forall c, (c < M)%nat -> constant_chain N (fun t => x t c) -> forall i, (i < N)%nat -> multi_chain_autocorr N M x i = NaN).
Proof.
  intros N M x HN HM. split; [apply overall_fin; assumption|]. split.
  - pose proof (B_nonneg N M x HM). assert (0 <= W N M x).
    { unfold W, mean. apply Rmult_le_pos; [apply Rsum_nonneg; intros; apply sample_var_nonneg; assumption|].
      left. apply Rinv_0_lt_compat, INR_pos. lia. }
    assert (0 <= W N M x * INR (N - 1) / INR N).
    { apply Rmult_le_pos; [apply Rmult_le_pos; [assumption|apply pos_INR]|left; apply Rinv_0_lt_compat, INR_pos; lia]. }
    lra.
  - split.
    + intros HC. split; [apply V_pos; assumption|]. split.
      * rewrite multi_fin by (assumption || lia). f_equal. apply combined_0; assumption.
      * intros. apply multi_fin; assumption.
    + intros c Hc C i Hi. apply (const_chain_nan N M x c); assumption.
Qed.
Print Assumptions C26_multi_chain.

(** Adding a constant leaves variance and curve alone, multiplying by a <> 0 multiplies the variance by
    a^2 and leaves the curve alone; so the autocorrelation time is unchanged. *)
Theorem C26_shift_and_scale : forall N M (x : nat -> nat -> R) a b, (2 <= N)%nat -> (2 <= M)%nat -> a <> 0 ->
  (forall c, (c < M)%nat -> ~ constant_chain N (fun t => x t c)) ->
  exists v, 0 < v /\ overall_var N M x = Fin v /\ overall_var N M (fun t c => a * x t c + b) = Fin (a ^ 2 * v) /\
    (forall i, (i < N)%nat -> multi_chain_autocorr N M (fun t c => a * x t c + b) i = multi_chain_autocorr N M x i) /\
    iac (get_stats_summary N M (fun t c => a * x t c + b)) = iac (get_stats_summary N M x).
Proof.
  intros N M x a b HN HM Ha HC. exists (V N M x).
  assert (HC' : forall c, (c < M)%nat -> ~ constant_chain N (fun t => a * x t c + b)).
  { intros c Hc C. apply (HC c Hc). intros s t Hs Ht. specialize (C s t Hs Ht). simpl in C.
    apply (Rmult_eq_reg_l a); [lra|assumption]. }
  assert (E : forall i, (i < N)%nat -> multi_chain_autocorr N M (fun t c => a * x t c + b) i = multi_chain_autocorr N M x i).
  { intros i Hi. rewrite !multi_fin by assumption. f_equal. apply combined_affine; assumption. }
  split; [apply V_pos; assumption|]. split; [apply overall_fin; assumption|]. split.
  { rewrite overall_fin by assumption. f_equal. apply V_affine; assumption. }
  split; [exact E|]. cbn [iac get_stats_summary]. f_equal. apply map_ext_in. intros i Hi. apply in_seq in Hi. apply E. lia.
Qed.
Print Assumptions C26_shift_and_scale.

(** A single chain: variance, error bar and (for two samples or more) the autocorrelation time are NaN. *)
Theorem C26_one_chain : forall N (x : nat -> nat -> R),
  overall_var N 1 x = NaN /\ std_err (get_stats_summary N 1 x) = NaN /\
  ((2 <= N)%nat -> iac (get_stats_summary N 1 x) = NaN).
Proof.
  intros N x. destruct (one_chain_nan N x) as [H1 H2]. split; [exact H1|]. split.
  - cbn [std_err get_stats_summary]. rewrite H1, xmul_nan_r, xdiv_nan_l. reflexivity.
  - intros HN. cbn [iac get_stats_summary]. destruct N as [|[|N]]; try lia. cbn [seq map]. rewrite !H2.
    unfold tau. cbn [sums_of_pairs xadd positive_prefix xltb min_accumulate]. cbn [xsum fold_right]. reflexivity.
Qed.
Print Assumptions C26_one_chain.

Example C26_example : (2 <= 3)%nat /\ (2 <= 2)%nat /\
  (forall c, (c < 2)%nat -> ~ constant_chain 3 (fun t => INR (t * t + c))) /\
  overall_var 3 2 (fun t c => INR (t * t + c)) = Fin (61 / 18).
Proof.
  split; [lia|]. split; [lia|]. split.
  - intros c Hc H. specialize (H 0%nat 1%nat ltac:(lia) ltac:(lia)). apply INR_eq in H. simpl in H. lia.
  - rewrite (proj1 (C26_multi_chain 3 2 _ ltac:(lia) ltac:(lia))). f_equal.
    unfold W, B, sample_var, mean. simpl. field.
Qed.
