(** * Proofs about the curvature blocks *)
From Coq Require Import Reals List Bool Arith ZArith Permutation Lia Lra FunctionalExtensionality.
From Verif Require Import Rsum M_tensor M_kfac S_kfac.
Import ListNotations.
Local Open Scope R_scope.

Lemma indices_length s : length (indices s) = size_of s.
Proof.
  induction s as [|n s IH]; [reflexivity|]. cbn [indices size_of fold_right]. fold (size_of s). rewrite <- IH.
  clear IH. generalize (indices s) as l. intros l. induction l as [|i l IH2]; [cbn; lia|]. cbn [map concat length]. rewrite app_length, map_length, seq_length, IH2. cbn [length]. lia.
Qed.

Lemma Rsum_mul n m f : Rsum (n * m) f = Rsum m (fun r => Rsum n (fun i => f (i + n * r)%nat)).
Proof.
  induction m as [|m IH]; [rewrite Nat.mul_0_r; reflexivity|]. rewrite Nat.mul_succ_r, Rsum_app, IH. cbn [Rsum]. f_equal. apply Rsum_ext. intros i _. f_equal. lia.
Qed.
Lemma lsum_Rsum {A} (l : list A) (g : A -> R) d : lsum (map g l) = Rsum (length l) (fun i => g (nth i l d)).
Proof. induction l as [|a l IH]; [reflexivity|]. cbn [map length]. rewrite Rsum_S_l. cbn [lsum fold_right nth]. fold (lsum (map g l)). rewrite IH. reflexivity. Qed.

(** Adding over row numbers is adding over all indices. *)
Lemma sum_unravel : forall s (g : list nat -> R), (forall n, In n s -> (0 < n)%nat) -> Rsum (size_of s) (fun r => g (unravel s r)) = lsum (map g (indices s)).
Proof.
  induction s as [|n s IH]; intros g P; [cbn; ring|].
  cbn [size_of fold_right]. fold (size_of s). rewrite Rsum_mul. pose proof (P n (or_introl eq_refl)) as Pn.
  rewrite (Rsum_ext _ _ (fun r => (fun i => Rsum n (fun k => g (k :: i))) (unravel s r))).
  - rewrite (IH (fun i => Rsum n (fun k => g (k :: i)))) by (intros m Hm; apply P; right; exact Hm).
    cbn [indices]. rewrite concat_map, lsum_concat, !map_map. f_equal. apply map_ext. intros i. rewrite map_map. rewrite lsum_map_seq. reflexivity.
  - intros r _. apply Rsum_ext. intros k Hk. cbn [unravel]. f_equal.
    rewrite (Nat.mul_comm n r), Nat.mod_add, Nat.mod_small by lia. rewrite Nat.div_add, Nat.div_small by lia. reflexivity.
Qed.

Lemma size_pos s : (forall n, In n s -> (0 < n)%nat) -> (0 < size_of s)%nat.
Proof. induction s as [|n s IH]; intros P; [cbn; lia|]. cbn [size_of fold_right]. fold (size_of s). pose proof (P n (or_introl eq_refl)). assert (0 < size_of s)%nat by (apply IH; intros m Hm; apply P; right; exact Hm). nia. Qed.

Lemma as_rows_shape x d s : rshape x = d :: s -> (0 < d)%nat ->
  as_rows x = Some {| rshape := [d; size_of s]; rentry := fun i => rentry x (unravel (d :: s) (ravel [d; size_of s] i)) |}.
Proof.
  intros E P. unfold as_rows. rewrite E. destruct d as [|d]; [lia|]. cbv zeta. assert (Q : (size_of (S d :: s) / S d = size_of s)%nat).
  { cbn [size_of fold_right]. fold (size_of s). rewrite Nat.mul_comm. apply Nat.div_mul. lia. }
  rewrite Q. reflexivity.
Qed.
Lemma row_entry x d s i a : (i < d)%nat -> rentry x (unravel (d :: s) (ravel [d; size_of s] [i; a])) = rentry x (i :: unravel s a).
Proof.
  intros H. cbn [ravel unravel]. replace (a + size_of s * 0)%nat with a by lia. f_equal. rewrite (Nat.mul_comm d a), Nat.mod_add, Nat.mod_small by lia. rewrite Nat.div_add, Nat.div_small by lia. reflexivity.
Qed.

(** One update adds the second moments over all places. *)
Lemma update_moments with_bias st b d m s : layer_batch d m b s -> (0 < d)%nat -> (0 < m)%nat ->
  exists st', repeated_dense_update with_bias st (b_x b) (b_dy b) (b_old b) (b_new b) (b_size b) = Some st' /\
    ma_weight (inputs_factor st') = ma_weight (inputs_factor st) * b_old b + b_new b /\
    ma_weight (outputs_factor st') = ma_weight (outputs_factor st) * b_old b + b_new b /\
    (forall i k, (i < d + (if with_bias then 1 else 0))%nat -> (k < d + (if with_bias then 1 else 0))%nat ->
       ma_raw (inputs_factor st') i k = ma_raw (inputs_factor st) i k * b_old b + second_moment (indices s) (layer_input with_bias d (b_x b)) i k * b_new b) /\
    (forall i k, (i < m)%nat -> (k < m)%nat ->
       ma_raw (outputs_factor st') i k = ma_raw (outputs_factor st) i k * b_old b + second_moment (indices s) (layer_tangent (b_dy b)) i k * b_new b).
Proof.
  intros (Ex & Ey & NE & L & P) Pd Pm. unfold repeated_dense_update. rewrite Ex. assert (EL : last (d :: s) O = b_size b) by (destruct s; [congruence|exact L]). rewrite EL, Nat.eqb_refl.
  rewrite (as_rows_shape _ d s Ex Pd), (as_rows_shape _ m s Ey Pm).
  assert (Q : (size_of (d :: s) / d = size_of s)%nat). { cbn [size_of fold_right]. fold (size_of s). rewrite Nat.mul_comm. apply Nat.div_mul. lia. }
  rewrite Q. unfold dense_update. cbn [rshape rentry]. rewrite Nat.eqb_refl. cbn [andb]. eexists. split; [reflexivity|]. cbn [inputs_factor outputs_factor ma_update ma_weight ma_raw].
  split; [reflexivity|]. split; [reflexivity|]. split; intros i k Hi Hk; f_equal; f_equal; unfold second_moment; rewrite indices_length; f_equal.
  - rewrite <- (sum_unravel s (fun p => layer_input with_bias d (b_x b) p i * layer_input with_bias d (b_x b) p k) P). apply Rsum_ext. intros a _. unfold layer_input. f_equal.
    + destruct (Nat.ltb i d) eqn:E; [|reflexivity]. apply Nat.ltb_lt in E. exact (row_entry _ d s i a E).
    + destruct (Nat.ltb k d) eqn:E; [|reflexivity]. apply Nat.ltb_lt in E. exact (row_entry _ d s k a E).
  - rewrite <- (sum_unravel s (fun p => layer_tangent (b_dy b) p i * layer_tangent (b_dy b) p k) P). apply Rsum_ext. intros a _. unfold layer_tangent. rewrite (row_entry _ m s i a Hi), (row_entry _ m s k a Hk). reflexivity.
Qed.

Lemma batch_weights_length bs : length (batch_weights bs) = length bs.
Proof. induction bs as [|b bs IH]; [reflexivity|]. cbn [batch_weights length]. rewrite IH. reflexivity. Qed.
Definition olds (bs : list batch) : R := fold_right Rmult 1 (map b_old bs).

(** Any number of updates. *)
Lemma updates_moments with_bias d m : (0 < d)%nat -> (0 < m)%nat -> forall bs ss st, Forall2 (layer_batch d m) bs ss ->
  exists st', updates with_bias st bs = Some st' /\
    ma_weight (inputs_factor st') = ma_weight (inputs_factor st) * olds bs + lsum (batch_weights bs) /\
    ma_weight (outputs_factor st') = ma_weight (outputs_factor st) * olds bs + lsum (batch_weights bs) /\
    (forall i k, (i < d + (if with_bias then 1 else 0))%nat -> (k < d + (if with_bias then 1 else 0))%nat ->
       ma_raw (inputs_factor st') i k = ma_raw (inputs_factor st) i k * olds bs +
         weighted (batch_weights bs) (map (fun bs => second_moment (indices (snd bs)) (layer_input with_bias d (b_x (fst bs))) i k) (combine bs ss))) /\
    (forall i k, (i < m)%nat -> (k < m)%nat ->
       ma_raw (outputs_factor st') i k = ma_raw (outputs_factor st) i k * olds bs +
         weighted (batch_weights bs) (map (fun bs => second_moment (indices (snd bs)) (layer_tangent (b_dy (fst bs))) i k) (combine bs ss))).
Proof.
  intros Pd Pm. induction bs as [|b bs IH]; intros ss st F.
  - inversion F; subst. exists st. split; [reflexivity|]. unfold olds. cbn. split; [ring|]. split; [ring|]. split; intros; ring.
  - inversion F as [|b' s bs' ss' Hb Hr]; subst. destruct (update_moments with_bias st b d m s Hb Pd Pm) as (st1 & E1 & W1 & V1 & I1 & O1).
    destruct (IH ss' st1 Hr) as (st2 & E2 & W2 & V2 & I2 & O2). exists st2. cbn [updates]. rewrite E1. split; [exact E2|].
    assert (OL : olds (b :: bs) = b_old b * olds bs) by reflexivity. assert (BW : batch_weights (b :: bs) = b_new b * olds bs :: batch_weights bs) by reflexivity.
    rewrite OL, BW. cbn [combine map weighted fst snd lsum fold_right]. fold (lsum (batch_weights bs)).
    split; [rewrite W2, W1; ring|]. split; [rewrite V2, V1; ring|]. split; intros i k Hi Hk.
    + rewrite (I2 i k Hi Hk), (I1 i k Hi Hk). ring.
    + rewrite (O2 i k Hi Hk), (O1 i k Hi Hk). ring.
Qed.

Lemma weighted_scale ws c vs : weighted (map (fun w => w * c) ws) vs = weighted ws vs * c.
Proof. revert vs. induction ws as [|w ws IH]; intros [|v vs]; cbn; try ring. rewrite IH. ring. Qed.

(** Averages of second moments are symmetric and positive semidefinite. *)
Lemma second_moment_sym ps v i k : second_moment ps v i k = second_moment ps v k i.
Proof. unfold second_moment. f_equal. f_equal. apply map_ext. intros p. ring. Qed.

Lemma quad_lsum {A} n (c : nat -> R) (l : list A) (v : A -> nat -> R) :
  Rsum n (fun i => Rsum n (fun k => c i * lsum (map (fun p => v p i * v p k) l) * c k)) = lsum (map (fun p => Rsum n (fun i => c i * v p i) * Rsum n (fun i => c i * v p i)) l).
Proof.
  induction l as [|p l IH].
  - cbn. apply Rsum_eq_0. intros i _. apply Rsum_eq_0. intros k _. ring.
  - cbn [map lsum fold_right]. fold (lsum (map (fun p => Rsum n (fun i => c i * v p i) * Rsum n (fun i => c i * v p i)) l)). rewrite <- IH.
    rewrite <- Rsum_scal_r. rewrite <- Rsum_plus. apply Rsum_ext. intros i _. rewrite <- Rsum_scal, <- Rsum_plus. apply Rsum_ext. intros k _. cbn [lsum fold_right]. fold (lsum (map (fun p => v p i * v p k) l)). ring.
Qed.

Lemma second_moment_psd ps v n : positive_semidefinite n (second_moment ps v).
Proof.
  intros c. rewrite (Rsum_ext _ _ (fun i => Rsum n (fun k => c i * lsum (map (fun p => v p i * v p k) ps) * c k) * / INR (length ps))).
  - rewrite Rsum_scal_r, quad_lsum. apply Rmult_le_pos.
    + apply lsum_nonneg. intros y Hy. apply in_map_iff in Hy. destruct Hy as (p & <- & _). apply Rle_0_sqr.
    + destruct ps as [|p ps]; [cbn; rewrite Rinv_0; lra|]. left. apply Rinv_0_lt_compat. apply lt_0_INR. cbn. lia.
  - intros i _. rewrite <- Rsum_scal_r. apply Rsum_ext. intros k _. unfold second_moment, Rdiv. ring.
Qed.

Lemma weighted_psd n : forall ws (ms : list matrix), (forall w, In w ws -> 0 <= w) -> (forall a, In a ms -> positive_semidefinite n a) ->
  positive_semidefinite n (fun i k => weighted ws (map (fun a => a i k) ms)).
Proof.
  induction ws as [|w ws IH]; intros ms Hw Hm c.
  - cbn. right. symmetry. apply Rsum_eq_0. intros i _. apply Rsum_eq_0. intros k _. ring.
  - destruct ms as [|a ms]; [cbn; right; symmetry; apply Rsum_eq_0; intros i _; apply Rsum_eq_0; intros k _; ring|]. cbn [map weighted].
    rewrite (Rsum_ext _ _ (fun i => w * Rsum n (fun k => c i * a i k * c k) + Rsum n (fun k => c i * weighted ws (map (fun a => a i k) ms) * c k))).
    + rewrite Rsum_plus, Rsum_scal. pose proof (IH ms (fun w' H => Hw w' (or_intror H)) (fun a' H => Hm a' (or_intror H)) c) as Q. cbv beta in Q.
      assert (0 <= w * Rsum n (fun i => Rsum n (fun k => c i * a i k * c k))) by (apply Rmult_le_pos; [apply Hw; left; reflexivity|apply (Hm a (or_introl eq_refl) c)]). lra.
    + intros i _. rewrite <- Rsum_scal, <- Rsum_plus. apply Rsum_ext. intros k _. ring.
Qed.

Lemma batch_weights_nonneg bs : (forall b, In b bs -> 0 <= b_old b /\ 0 <= b_new b) -> forall w, In w (batch_weights bs) -> 0 <= w.
Proof.
  induction bs as [|b bs IH]; intros H w Hw; [destruct Hw|]. cbn [batch_weights] in Hw. destruct Hw as [<-|Hw].
  - apply Rmult_le_pos; [apply H; left; reflexivity|]. assert (forall l : list batch, (forall b, In b l -> 0 <= b_old b) -> 0 <= fold_right Rmult 1 (map b_old l)) as X.
    { induction l as [|a l IHl]; intros Hl; cbn; [lra|]. apply Rmult_le_pos; [apply Hl; left; reflexivity|apply IHl; intros; apply Hl; right; assumption]. }
    apply X. intros a Ha. apply H. right. exact Ha.
  - apply IH; [intros a Ha; apply H; right; exact Ha|exact Hw].
Qed.
