(** * Proofs about QmcBlockedDense *)
From Coq Require Import Reals List Bool Arith ZArith Permutation Lia Lra FunctionalExtensionality.
From Verif Require Import Rsum M_tensor M_kfac S_kfac P_kfac.
Import ListNotations.
Local Open Scope R_scope.

(** Weighted sums of rank-one matrices. *)
Definition gram (a : matrix) : Prop :=
  exists l : list (R * (nat -> R)), (forall p, In p l -> 0 <= fst p) /\ forall i k, a i k = lsum (map (fun p => fst p * (snd p i * snd p k)) l).

Lemma gram_zero : gram (fun _ _ => 0).
Proof. exists []. split; [intros p []|reflexivity]. Qed.
Lemma gram_scale a c : 0 <= c -> gram a -> gram (fun i k => a i k * c).
Proof.
  intros C (l & P & E). exists (map (fun p => (fst p * c, snd p)) l). split.
  - intros p Hp. apply in_map_iff in Hp. destruct Hp as (q & <- & Hq). cbn. apply Rmult_le_pos; [apply P; exact Hq|exact C].
  - intros i k. rewrite E, map_map. cbn [fst snd]. rewrite Rmult_comm, <- lsum_map_scal. f_equal. apply map_ext. intros p. ring.
Qed.
Lemma gram_plus a b : gram a -> gram b -> gram (fun i k => a i k + b i k).
Proof.
  intros (l & P & E) (l' & P' & E'). exists (l ++ l'). split.
  - intros p Hp. apply in_app_or in Hp. destruct Hp as [Hp|Hp]; [apply P|apply P']; exact Hp.
  - intros i k. rewrite E, E', map_app, lsum_app. reflexivity.
Qed.
Lemma gram_ext a b : (forall i k, a i k = b i k) -> gram a -> gram b.
Proof. intros H (l & P & E). exists l. split; [exact P|]. intros i k. rewrite <- H. apply E. Qed.
Lemma gram_rsum n f : (forall t, (t < n)%nat -> gram (f t)) -> gram (fun i k => Rsum n (fun t => f t i k)).
Proof.
  induction n as [|n IH]; intros H; [exact gram_zero|]. cbn [Rsum]. apply (gram_plus (fun i k => Rsum n (fun t => f t i k)) (f n)); [apply IH; intros t Ht; apply H; lia|apply H; lia].
Qed.
Lemma gram_rank1 v : gram (fun i k => v i * v k).
Proof. exists [(1, v)]. split; [intros p [<-|[]]; cbn; lra|]. intros i k. cbn. ring. Qed.
Lemma gram_sym a : gram a -> forall i k, a i k = a k i.
Proof. intros (l & _ & E) i k. rewrite !E. f_equal. apply map_ext. intros p. ring. Qed.

(** The factors after any updates. *)
Definition qolds (bs : list qmc_batch) : R := fold_right Rmult 1 (map qb_old bs).

Lemma qmc_updates_spec q : forall bs st, exists st', qmc_updates q st bs = Some st' /\ qs_cache st' = qs_cache st /\
  ma_weight (qs_inputs st') = ma_weight (qs_inputs st) * qolds bs + lsum (qmc_weights bs) /\
  ma_weight (qs_outputs st') = ma_weight (qs_outputs st) * qolds bs + lsum (qmc_weights bs) /\
  (forall j i k, ma_raw (qs_inputs st') j i k = ma_raw (qs_inputs st) j i k * qolds bs + weighted (qmc_weights bs) (map (fun b => qmc_moment b (fun t e c => qb_x b t e j c) i k) bs)) /\
  (forall j i k, ma_raw (qs_outputs st') j i k = ma_raw (qs_outputs st) j i k * qolds bs + weighted (qmc_weights bs) (map (fun b => qmc_moment b (qmc_merged q b j) i k) bs)).
Proof.
  induction bs as [|b bs IH]; intros st.
  - exists st. unfold qolds. cbn. split; [reflexivity|]. split; [reflexivity|]. split; [ring|]. split; [ring|]. split; intros; ring.
  - cbn [qmc_updates]. unfold qmc_update at 1. rewrite Nat.eqb_refl.
    match goal with |- context [qmc_updates q ?s bs] => destruct (IH s) as (st2 & E2 & C2 & W2 & V2 & I2 & O2) end.
    exists st2. split; [exact E2|]. split; [exact C2|]. cbn [qs_inputs qs_outputs mas_update ma_weight ma_raw qs_cache] in *.
    assert (OL : qolds (b :: bs) = qb_old b * qolds bs) by reflexivity. assert (BW : qmc_weights (b :: bs) = qb_new b * qolds bs :: qmc_weights bs) by reflexivity.
    rewrite OL, BW. cbn [map weighted lsum fold_right]. fold (lsum (qmc_weights bs)).
    split; [rewrite W2; ring|]. split; [rewrite V2; ring|]. split; intros j i k; [rewrite I2|rewrite O2]; unfold qmc_moment, qmc_merged; ring.
Qed.

Lemma qmc_moment_gram b v : gram (qmc_moment b v).
Proof.
  apply (gram_scale (fun i k => Rsum (qb_n b) (fun t => Rsum (qb_i b) (fun e => v t e i * v t e k)))).
  - destruct (Nat.eq_dec (qb_n b * qb_i b) 0) as [->|N]; [cbn; rewrite Rinv_0; lra|]. left. apply Rinv_0_lt_compat, lt_0_INR. lia.
  - apply (gram_rsum (qb_n b) (fun t i k => Rsum (qb_i b) (fun e => v t e i * v t e k))). intros t _. apply (gram_rsum (qb_i b) (fun e i k => v t e i * v t e k)). intros e _. apply gram_rank1.
Qed.
Lemma weighted_gram ws ms : (forall w, In w ws -> 0 <= w) -> (forall a, In a ms -> gram a) -> gram (fun i k => weighted ws (map (fun a : matrix => a i k) ms)).
Proof.
  revert ms. induction ws as [|w ws IH]; intros ms Hw Hm; [exact gram_zero|]. destruct ms as [|a ms]; [exact gram_zero|]. cbn [map weighted].
  apply gram_plus; [|apply IH; [intros w' H; apply Hw; right; exact H|intros a' H; apply Hm; right; exact H]].
  apply (gram_ext (fun i k => a i k * w)); [intros; ring|]. apply gram_scale; [apply Hw; left; reflexivity|apply Hm; left; reflexivity].
Qed.
Lemma qmc_weights_nonneg bs : (forall b, In b bs -> 0 <= qb_old b /\ 0 <= qb_new b) -> forall w, In w (qmc_weights bs) -> 0 <= w.
Proof.
  induction bs as [|b bs IH]; intros H w Hw; [destruct Hw|]. cbn [qmc_weights] in Hw. destruct Hw as [<-|Hw].
  - apply Rmult_le_pos; [apply H; left; reflexivity|]. assert (forall l : list qmc_batch, (forall b, In b l -> 0 <= qb_old b) -> 0 <= fold_right Rmult 1 (map qb_old l)) as X.
    { induction l as [|a l IHl]; intros Hl; cbn; [lra|]. apply Rmult_le_pos; [apply Hl; left; reflexivity|apply IHl; intros; apply Hl; right; assumption]. }
    apply X. intros a Ha. apply H. right. exact Ha.
  - apply IH; [intros a Ha; apply H; right; exact Ha|exact Hw].
Qed.

Section Mult.
Variable q : qmc_dims.
Notation M := (q_m q). Notation N := (q_n q).

Lemma split_index m n : (n < N)%nat -> ((m * N + n) / N = m /\ (m * N + n) mod N = n)%nat.
Proof. intros H. rewrite Nat.add_comm, Nat.div_add, Nat.mod_add, Nat.div_small, Nat.mod_small by lia. split; reflexivity. Qed.

Lemma sum_mn (f : nat -> R) : Rsum (M * N) f = Rsum M (fun m => Rsum N (fun n => f (m * N + n)%nat)).
Proof. rewrite Nat.mul_comm, Rsum_mul. apply Rsum_ext. intros m _. apply Rsum_ext. intros n _. f_equal. lia. Qed.

Lemma product_kronecker a b w : same_array q (from_jkmn q (matmul (M * N) (matmul (q_k q) a (to_jkmn q w)) b)) (kronecker q a b w).
Proof.
  intros k m j n Hk Hm Hj Hn. unfold from_jkmn, matmul, kronecker, to_jkmn. rewrite sum_mn.
  rewrite (Rsum_ext M _ (fun m' => Rsum N (fun n' => Rsum (q_k q) (fun k' => a j k k' * b j (m' * N + n')%nat (m * N + n)%nat * w k' m' j n')))).
  - rewrite (Rsum_ext M _ (fun m' => Rsum (q_k q) (fun k' => Rsum N (fun n' => a j k k' * b j (m' * N + n')%nat (m * N + n)%nat * w k' m' j n')))) by (intros m' _; apply Rsum_swap).
    apply Rsum_swap.
  - intros m' _. apply Rsum_ext. intros n' Hn'. destruct (split_index m' n' Hn') as [-> ->]. rewrite <- Rsum_scal_r. apply Rsum_ext. intros k' _. ring.
Qed.

(** The quadratic form of a Kronecker product of Gram matrices. *)
Definition form (nk nc : nat) (a b : matrix) (V W : nat -> nat -> R) : R :=
  Rsum nk (fun k => Rsum nc (fun c => V k c * Rsum nk (fun k' => Rsum nc (fun c' => a k k' * b c' c * W k' c')))).

Lemma form_ext nk nc a a' b b' V W : (forall i k, a i k = a' i k) -> (forall i k, b i k = b' i k) -> form nk nc a b V W = form nk nc a' b' V W.
Proof. intros Ha Hb. unfold form. apply Rsum_ext. intros k _. apply Rsum_ext. intros c _. f_equal. apply Rsum_ext. intros k' _. apply Rsum_ext. intros c' _. rewrite Ha, Hb. reflexivity. Qed.

Lemma form_rank1 nk nc s x t y V : form nk nc (fun i k => s * (x i * x k)) (fun i k => t * (y i * y k)) V V =
  s * t * (Rsum nk (fun k => Rsum nc (fun c => x k * y c * V k c)) * Rsum nk (fun k => Rsum nc (fun c => x k * y c * V k c))).
Proof.
  unfold form. set (Q := Rsum nk (fun k => Rsum nc (fun c => x k * y c * V k c))).
  transitivity (Rsum nk (fun k => Rsum nc (fun c => x k * y c * V k c) * (s * t * Q))).
  - apply Rsum_ext. intros k _. rewrite <- Rsum_scal_r. apply Rsum_ext. intros c _.
    replace (Rsum nk (fun k' => Rsum nc (fun c' => s * (x k * x k') * (t * (y c' * y c)) * V k' c'))) with (s * t * x k * y c * Q); [ring|].
    unfold Q. rewrite <- Rsum_scal. apply Rsum_ext. intros k' _. rewrite <- Rsum_scal. apply Rsum_ext. intros c' _. ring.
  - rewrite Rsum_scal_r. fold Q. ring.
Qed.
Lemma form_plus_a nk nc a a' b V W : form nk nc (fun i k => a i k + a' i k) b V W = form nk nc a b V W + form nk nc a' b V W.
Proof. unfold form. rewrite <- Rsum_plus. apply Rsum_ext. intros k _. rewrite <- Rsum_plus. apply Rsum_ext. intros c _. rewrite <- Rmult_plus_distr_l. f_equal. rewrite <- Rsum_plus. apply Rsum_ext. intros k' _. rewrite <- Rsum_plus. apply Rsum_ext. intros c' _. ring. Qed.
Lemma form_plus_b nk nc a b b' V W : form nk nc a (fun i k => b i k + b' i k) V W = form nk nc a b V W + form nk nc a b' V W.
Proof. unfold form. rewrite <- Rsum_plus. apply Rsum_ext. intros k _. rewrite <- Rsum_plus. apply Rsum_ext. intros c _. rewrite <- Rmult_plus_distr_l. f_equal. rewrite <- Rsum_plus. apply Rsum_ext. intros k' _. rewrite <- Rsum_plus. apply Rsum_ext. intros c' _. ring. Qed.
Lemma form_zero nk nc a b V W : (forall i k, a i k = 0) \/ (forall i k, b i k = 0) -> form nk nc a b V W = 0.
Proof. intros H. unfold form. apply Rsum_eq_0. intros k _. apply Rsum_eq_0. intros c _. rewrite (Rsum_eq_0 nk); [ring|]. intros k' _. apply Rsum_eq_0. intros c' _. destruct H as [H|H]; rewrite H; ring. Qed.

Lemma form_gram nk nc a b V : gram a -> gram b -> 0 <= form nk nc a b V V.
Proof.
  intros (la & Pa & Ea) (lb & Pb & Eb). rewrite (form_ext nk nc a _ b _ V V Ea Eb). clear Ea Eb.
  induction la as [|p la IHa].
  - right. symmetry. apply form_zero. left. reflexivity.
  - rewrite (form_ext nk nc _ (fun i k => fst p * (snd p i * snd p k) + lsum (map (fun p => fst p * (snd p i * snd p k)) la)) _ (fun i k => lsum (map (fun p => fst p * (snd p i * snd p k)) lb))) by reflexivity.
    rewrite form_plus_a. apply Rplus_le_le_0_compat; [|apply IHa; intros r Hr; apply Pa; right; exact Hr]. pose proof (Pa p (or_introl eq_refl)) as P0. clear IHa Pa.
    induction lb as [|r lb IHb].
    + right. symmetry. apply form_zero. right. reflexivity.
    + rewrite (form_ext nk nc _ (fun i k => fst p * (snd p i * snd p k)) _ (fun i k => fst r * (snd r i * snd r k) + lsum (map (fun p => fst p * (snd p i * snd p k)) lb))) by reflexivity.
      rewrite form_plus_b. apply Rplus_le_le_0_compat; [|apply IHb; intros t Ht; apply Pb; right; exact Ht].
      rewrite form_rank1. apply Rmult_le_pos; [apply Rmult_le_pos; [exact P0|apply Pb; left; reflexivity]|apply Rle_0_sqr].
Qed.

Lemma form_sym nk nc a b V W : (forall i k, a i k = a k i) -> (forall i k, b i k = b k i) -> form nk nc a b V W = form nk nc a b W V.
Proof.
  intros Sa Sb. unfold form.
  transitivity (Rsum nk (fun k => Rsum nc (fun c => Rsum nk (fun k' => Rsum nc (fun c' => V k c * (a k k' * b c' c * W k' c')))))).
  { apply Rsum_ext. intros k _. apply Rsum_ext. intros c _. rewrite <- Rsum_scal. apply Rsum_ext. intros k' _. rewrite <- Rsum_scal. reflexivity. }
  transitivity (Rsum nk (fun k' => Rsum nc (fun c' => Rsum nk (fun k => Rsum nc (fun c => V k c * (a k k' * b c' c * W k' c')))))).
  { rewrite (Rsum_ext nk _ (fun k => Rsum nk (fun k' => Rsum nc (fun c => Rsum nc (fun c' => V k c * (a k k' * b c' c * W k' c')))))) by (intros k _; apply Rsum_swap).
    rewrite Rsum_swap. apply Rsum_ext. intros k' _.
    rewrite (Rsum_ext nk _ (fun k => Rsum nc (fun c' => Rsum nc (fun c => V k c * (a k k' * b c' c * W k' c'))))) by (intros k _; apply Rsum_swap).
    apply Rsum_swap. }
  apply Rsum_ext. intros k' _. apply Rsum_ext. intros c' _. rewrite <- Rsum_scal. apply Rsum_ext. intros k _. rewrite <- Rsum_scal. apply Rsum_ext. intros c _. rewrite (Sa k k'), (Sb c' c). ring.
Qed.

Lemma inner_form a b v w : inner q v (kronecker q a b w) = Rsum (q_j q) (fun j => form (q_k q) (M * N) (a j) (b j) (to_jkmn q v j) (to_jkmn q w j)).
Proof.
  unfold inner, form. apply Rsum_ext. intros j _. apply Rsum_ext. intros k _. rewrite sum_mn. apply Rsum_ext. intros m _. apply Rsum_ext. intros n Hn. unfold to_jkmn at 1. destruct (split_index m n Hn) as [-> ->]. f_equal.
  unfold kronecker. apply Rsum_ext. intros k' _. rewrite sum_mn. apply Rsum_ext. intros m' _. apply Rsum_ext. intros n' Hn'. unfold to_jkmn. destruct (split_index m' n' Hn') as [-> ->]. reflexivity.
Qed.

Lemma inner_same v w w' : same_array q w w' -> inner q v w = inner q v w'.
Proof. intros S. unfold inner. apply Rsum_ext. intros j Hj. apply Rsum_ext. intros k Hk. apply Rsum_ext. intros m Hm. apply Rsum_ext. intros n Hn. rewrite S by assumption. reflexivity. Qed.
Lemma inner_comm v w : inner q v w = inner q w v.
Proof. unfold inner. apply Rsum_ext. intros j _. apply Rsum_ext. intros k _. apply Rsum_ext. intros m _. apply Rsum_ext. intros n _. ring. Qed.
Lemma inner_plus v w c w' : inner q v (fun k m j n => w k m j n + c * w' k m j n) = inner q v w + c * inner q v w'.
Proof.
  unfold inner. rewrite <- Rsum_scal, <- Rsum_plus. apply Rsum_ext. intros j _. rewrite <- Rsum_scal, <- Rsum_plus. apply Rsum_ext. intros k _. rewrite <- Rsum_scal, <- Rsum_plus. apply Rsum_ext. intros m _. rewrite <- Rsum_scal, <- Rsum_plus. apply Rsum_ext. intros n _. ring.
Qed.

(** Inverses. *)

Lemma to_from_sum (v : matrices) j k c : (c < M * N)%nat -> to_jkmn q (from_jkmn q v) j k c = v j k c.
Proof. intros H. unfold to_jkmn, from_jkmn. f_equal. assert (N <> 0)%nat by nia. pose proof (Nat.div_mod c N ltac:(assumption)). lia. Qed.

Lemma inverse_product a b ia ib w : (forall j, (j < q_j q)%nat -> right_inverse (q_k q) (ia j) (a j)) -> (forall j, (j < q_j q)%nat -> right_inverse (M * N) (b j) (ib j)) ->
  same_array q (from_jkmn q (matmul (M * N) (matmul (q_k q) ia (to_jkmn q (from_jkmn q (matmul (M * N) (matmul (q_k q) a (to_jkmn q w)) b)))) ib)) w.
Proof.
  intros Ia Ib k m j n Hk Hm Hj Hn. unfold from_jkmn at 1. set (c0 := (m * N + n)%nat). assert (Hc0 : (c0 < M * N)%nat) by (unfold c0; nia).
  unfold matmul at 1. unfold matmul at 1.
  rewrite (Rsum_ext (M * N) _ (fun c => Rsum (M * N) (fun c' => to_jkmn q w j k c' * (b j c' c * ib j c c0)))).
  - rewrite Rsum_swap. rewrite (Rsum_ext (M * N) _ (fun c' => if Nat.eqb c' c0 then to_jkmn q w j k c' else 0)).
    + rewrite (Rsum_indicator (M * N) c0 (fun c' => to_jkmn q w j k c') Hc0). unfold to_jkmn, c0. destruct (split_index m n Hn) as [-> ->]. reflexivity.
    + intros c' Hc'. rewrite Rsum_scal, (Ib j Hj c' c0 Hc' Hc0). destruct (Nat.eqb c' c0); ring.
  - intros c Hc. transitivity (Rsum (M * N) (fun c' => to_jkmn q w j k c' * b j c' c) * ib j c c0); [|rewrite <- Rsum_scal_r; apply Rsum_ext; intros; ring]. f_equal.
    rewrite (Rsum_ext (q_k q) _ (fun l => ia j k l * Rsum (M * N) (fun c' => Rsum (q_k q) (fun k' => a j l k' * to_jkmn q w j k' c') * b j c' c))).
    2:{ intros l _. f_equal. apply to_from_sum. exact Hc. }
    rewrite (Rsum_ext (q_k q) _ (fun l => Rsum (M * N) (fun c' => ia j k l * Rsum (q_k q) (fun k' => a j l k' * to_jkmn q w j k' c') * b j c' c))).
    2:{ intros l _. rewrite <- Rsum_scal. apply Rsum_ext. intros c' _. ring. }
    rewrite Rsum_swap. apply Rsum_ext. intros c' _. rewrite Rsum_scal_r. f_equal.
    rewrite (Rsum_ext (q_k q) _ (fun l => Rsum (q_k q) (fun k' => ia j k l * a j l k' * to_jkmn q w j k' c'))).
    2:{ intros l _. rewrite <- Rsum_scal. apply Rsum_ext. intros k' _. ring. }
    rewrite Rsum_swap. rewrite (Rsum_ext (q_k q) _ (fun k' => if Nat.eqb k' k then to_jkmn q w j k' c' else 0)).
    + apply (Rsum_indicator (q_k q) k (fun k' => to_jkmn q w j k' c') Hk).
    + intros k' Hk'. rewrite Rsum_scal_r, (Ia j Hj k k' Hk Hk'). rewrite Nat.eqb_sym. destruct (Nat.eqb k' k); ring.
Qed.
End Mult.
