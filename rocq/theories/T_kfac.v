(** * C87: the curvature blocks of KFAC *)
From Coq Require Import Reals List Bool Arith ZArith Permutation Lia Lra FunctionalExtensionality.
From Verif Require Import Rsum M_tensor M_kfac S_kfac P_kfac P_kfac2.
Import ListNotations.
Local Open Scope R_scope.

(** The two factors of a repeated dense layer after any number of updates: weighted averages of the second moments of the layer's
    inputs (with a 1 appended for the bias) and of its output tangents, over all places (walkers, particles, ...) of each batch. *)
Theorem C87_factors with_bias d m bs ss : (0 < d)%nat -> (0 < m)%nat -> Forall2 (layer_batch d m) bs ss -> lsum (batch_weights bs) <> 0 ->
  exists st, updates with_bias no_factors bs = Some st /\
    (forall i k, (i < d + (if with_bias then 1 else 0))%nat -> (k < d + (if with_bias then 1 else 0))%nat ->
       ma_value (inputs_factor st) i k =
         weighted (batch_weights bs) (map (fun bs' => second_moment (indices (snd bs')) (layer_input with_bias d (b_x (fst bs'))) i k) (combine bs ss)) / lsum (batch_weights bs)) /\
    (forall i k, (i < m)%nat -> (k < m)%nat ->
       ma_value (outputs_factor st) i k =
         weighted (batch_weights bs) (map (fun bs' => second_moment (indices (snd bs')) (layer_tangent (b_dy (fst bs'))) i k) (combine bs ss)) / lsum (batch_weights bs)).
Proof.
  intros D Mp F W. destruct (updates_moments with_bias d m D Mp bs ss no_factors F) as (st & E & W1 & W2 & I1 & O1).
  exists st. split; [exact E|]. cbn in W1, W2. rewrite Rmult_0_l, Rplus_0_l in W1, W2. unfold ma_value. rewrite W1, W2. split; intros i k Hi Hk.
  - rewrite (I1 i k Hi Hk). cbn. f_equal. ring.
  - rewrite (O1 i k Hi Hk). cbn. f_equal. ring.
Qed.
Print Assumptions C87_factors.

(** With averaging weights that are not negative both factors are symmetric and positive semidefinite. *)
Theorem C87_positive with_bias d m bs ss : (0 < d)%nat -> (0 < m)%nat -> Forall2 (layer_batch d m) bs ss -> (forall b, In b bs -> 0 <= b_old b /\ 0 <= b_new b) -> lsum (batch_weights bs) <> 0 ->
  exists st, updates with_bias no_factors bs = Some st /\
    symmetric (d + (if with_bias then 1 else 0)) (ma_value (inputs_factor st)) /\ positive_semidefinite (d + (if with_bias then 1 else 0)) (ma_value (inputs_factor st)) /\
    symmetric m (ma_value (outputs_factor st)) /\ positive_semidefinite m (ma_value (outputs_factor st)).
Proof.
  intros D Mp F NN W. destruct (C87_factors with_bias d m bs ss D Mp F W) as (st & E & Iv & Ov). exists st. split; [exact E|].
  pose proof (batch_weights_nonneg bs NN) as WN.
  assert (Wp : 0 <= lsum (batch_weights bs)) by (apply lsum_nonneg; exact WN).
  assert (X : forall n (a : matrix) (g : batch * list nat -> matrix), (forall p i k, g p i k = g p k i) -> (forall p, positive_semidefinite n (g p)) ->
     (forall i k, (i < n)%nat -> (k < n)%nat -> a i k = weighted (batch_weights bs) (map (fun p => g p i k) (combine bs ss)) / lsum (batch_weights bs)) -> symmetric n a /\ positive_semidefinite n a).
  { intros n a g Gs Gp Ea. split.
    - intros i k Hi Hk. rewrite (Ea i k Hi Hk), (Ea k i Hk Hi). f_equal. f_equal. apply map_ext. intros p. apply Gs.
    - intros c. pose proof (weighted_psd n (batch_weights bs) (map g (combine bs ss)) WN) as P.
      assert (P1 : forall b, In b (map g (combine bs ss)) -> positive_semidefinite n b) by (intros b Hb; apply in_map_iff in Hb; destruct Hb as (p & <- & _); apply Gp).
      specialize (P P1 c).
      rewrite (Rsum_ext n _ (fun i => Rsum n (fun k => c i * weighted (batch_weights bs) (map (fun b : matrix => b i k) (map g (combine bs ss))) * c k) * / lsum (batch_weights bs))).
      + rewrite Rsum_scal_r. apply Rmult_le_pos; [exact P|]. left. apply Rinv_0_lt_compat. lra.
      + intros i Hi. rewrite <- Rsum_scal_r. apply Rsum_ext. intros k Hk. rewrite (Ea i k Hi Hk), map_map. unfold Rdiv. ring. }
  destruct (X _ _ (fun p => second_moment (indices (snd p)) (layer_input with_bias d (b_x (fst p)))) (fun p => second_moment_sym _ _) (fun p => second_moment_psd _ _ _) Iv) as [A1 A2].
  destruct (X _ _ (fun p => second_moment (indices (snd p)) (layer_tangent (b_dy (fst p)))) (fun p => second_moment_sym _ _) (fun p => second_moment_psd _ _ _) Ov) as [B1 B2].
  auto.
Qed.
Print Assumptions C87_positive.

(** Permuting the places of a batch (walkers, particles) changes no factor. *)
Theorem C87_order with_bias st b b' d m s (f : list nat -> list nat) : (0 < d)%nat -> (0 < m)%nat -> layer_batch d m b s -> layer_batch d m b' s ->
  Permutation (map f (indices s)) (indices s) ->
  (forall i p, In p (indices s) -> rentry (b_x b') (i :: p) = rentry (b_x b) (i :: f p)) -> (forall i p, In p (indices s) -> rentry (b_dy b') (i :: p) = rentry (b_dy b) (i :: f p)) ->
  b_old b' = b_old b -> b_new b' = b_new b ->
  exists st1 st2, updates with_bias st [b] = Some st1 /\ updates with_bias st [b'] = Some st2 /\
    (forall i k, (i < d + (if with_bias then 1 else 0))%nat -> (k < d + (if with_bias then 1 else 0))%nat -> ma_value (inputs_factor st1) i k = ma_value (inputs_factor st2) i k) /\
    (forall i k, (i < m)%nat -> (k < m)%nat -> ma_value (outputs_factor st1) i k = ma_value (outputs_factor st2) i k).
Proof.
  intros D Mp L L' P Ex Ey Eo En.
  destruct (updates_moments with_bias d m D Mp [b] [s] st (Forall2_cons _ _ L (Forall2_nil _))) as (s1 & E1 & W1 & V1 & I1 & O1).
  destruct (updates_moments with_bias d m D Mp [b'] [s] st (Forall2_cons _ _ L' (Forall2_nil _))) as (s2 & E2 & W2 & V2 & I2 & O2).
  exists s1, s2. split; [exact E1|]. split; [exact E2|].
  assert (OO : olds [b'] = olds [b]) by (unfold olds; cbn; rewrite Eo; reflexivity). assert (BW : batch_weights [b'] = batch_weights [b]) by (cbn; rewrite En; reflexivity).
  assert (Mv : forall v v' : list nat -> nat -> R, (forall p i, In p (indices s) -> v' p i = v (f p) i) -> forall i k, second_moment (indices s) v' i k = second_moment (indices s) v i k).
  { intros v v' H i k. unfold second_moment. f_equal. rewrite (map_ext_in (fun p => v' p i * v' p k) (fun p => v (f p) i * v (f p) k)) by (intros p Hp; rewrite !H by exact Hp; reflexivity).
    rewrite <- (map_map f (fun p => v p i * v p k)). apply lsum_perm. apply Permutation_map. exact P. }
  unfold ma_value. split; intros i k Hi Hk.
  - rewrite W1, W2, (I1 i k Hi Hk), (I2 i k Hi Hk), OO, BW. f_equal. f_equal. f_equal. cbn [combine map fst snd]. f_equal. symmetry. apply Mv. intros p t Hp. unfold layer_input. rewrite Ex by exact Hp. reflexivity.
  - rewrite V1, V2, (O1 i k Hi Hk), (O2 i k Hi Hk), OO, BW. f_equal. f_equal. f_equal. cbn [combine map fst snd]. f_equal. symmetry. apply Mv. intros p t Hp. unfold layer_tangent. apply Ey. exact Hp.
Qed.
Print Assumptions C87_order.

(** The scale of a repeated dense layer is the number of times the layer is applied for one walker: batch size times scale is the number of places averaged over. *)
Theorem C87_scale d s batch_size : (0 < d)%nat -> s <> [] -> last s O = batch_size -> (forall n, In n s -> (0 < n)%nat) ->
  exists c, repeated_fixed_scale (d :: s) = Some c /\ (batch_size * c = length (indices s))%nat /\ c = length (indices (removelast s)).
Proof.
  intros D Ne La P. exists (size_of (removelast s)). rewrite !indices_length.
  assert (Sz : size_of s = (size_of (removelast s) * last s O)%nat).
  { clear -Ne. induction s as [|a s IH]; [congruence|]. destruct s as [|b s]; [cbn; lia|]. change (removelast (a :: b :: s)) with (a :: removelast (b :: s)). change (last (a :: b :: s) O) with (last (b :: s) O).
    change (size_of (a :: b :: s)) with (a * size_of (b :: s))%nat. rewrite IH by discriminate. change (size_of (a :: removelast (b :: s))) with (a * size_of (removelast (b :: s)))%nat. apply Nat.mul_assoc. }
  assert (Lp : (0 < last s O)%nat) by (apply P; destruct s; [congruence|]; rewrite (app_removelast_last O Ne) at 2; apply in_or_app; right; left; reflexivity).
  split; [|split; [rewrite Sz, La; lia|reflexivity]].
  unfold repeated_fixed_scale. destruct s as [|a s]; [congruence|]. change (last (d :: a :: s) O) with (last (a :: s) O).
  destruct (Nat.eqb_spec (last (a :: s) O * d) 0) as [Z|Z]; [nia|]. f_equal.
  change (size_of (d :: a :: s)) with (d * size_of (a :: s))%nat. rewrite Sz. replace (d * (size_of (removelast (a :: s)) * last (a :: s) O))%nat with (size_of (removelast (a :: s)) * (last (a :: s) O * d))%nat by lia. apply Nat.div_mul. exact Z.
Qed.
Print Assumptions C87_scale.

(** A batch whose first axis is not the stated batch size raises. *)
Theorem C87_batch_size with_bias st x dy ema_old ema_new n : last (rshape x) O <> n -> repeated_dense_update with_bias st x dy ema_old ema_new n = None.
Proof. intros H. unfold repeated_dense_update. destruct (rshape x) as [|d s] eqn:E; [reflexivity|]. destruct (Nat.eqb_spec (last (d :: s) O) n) as [X|X]; [congruence|reflexivity]. Qed.
Print Assumptions C87_batch_size.

(** ** The blocked dense layer *)

(** Its factors after any number of updates: for each j, weighted averages of the second moments over walkers and particles. *)
Theorem C87_blocked_factors q exact approx st0 bs : qmc_init exact approx = Some st0 -> lsum (qmc_weights bs) <> 0 ->
  exists st, qmc_updates q st0 bs = Some st /\
    (forall j i k, mas_value (qs_inputs st) j i k = weighted (qmc_weights bs) (map (fun b => qmc_moment b (fun t e c => qb_x b t e j c) i k) bs) / lsum (qmc_weights bs)) /\
    (forall j i k, mas_value (qs_outputs st) j i k = weighted (qmc_weights bs) (map (fun b => qmc_moment b (qmc_merged q b j) i k) bs) / lsum (qmc_weights bs)).
Proof.
  intros I0 W. destruct (qmc_updates_spec q bs st0) as (st & E & _ & W1 & W2 & Iv & Ov). exists st. split; [exact E|].
  assert (Z : ma_weight (qs_inputs st0) = 0 /\ ma_weight (qs_outputs st0) = 0 /\ (forall j i k, ma_raw (qs_inputs st0) j i k = 0) /\ (forall j i k, ma_raw (qs_outputs st0) j i k = 0)).
  { unfold qmc_init in I0. destruct exact; [|discriminate]. destruct (zero_cache approx); [|discriminate]. injection I0 as <-. cbn. auto. }
  destruct Z as (Z1 & Z2 & Z3 & Z4). unfold mas_value. split; intros j i k.
  - rewrite W1, Iv, Z1, Z3, !Rmult_0_l, !Rplus_0_l. reflexivity.
  - rewrite W2, Ov, Z2, Z4, !Rmult_0_l, !Rplus_0_l. reflexivity.
Qed.
Print Assumptions C87_blocked_factors.

(** Multiplying by the matrix itself: the block-diagonal Kronecker product of the factors, plus the damping times the vector. *)
Theorem C87_blocked_matrix q st w damping exact cached :
  exists v, qmc_multiply_matpower q st w damping 1 exact cached = Some v /\
    same_array q v (fun k m j n => kronecker q (mas_value (qs_inputs st)) (mas_value (qs_outputs st)) w k m j n + damping * w k m j n).
Proof.
  eexists. split; [reflexivity|]. intros k m j n Hk Hm Hj Hn. cbv beta. f_equal. apply product_kronecker; assumption.
Qed.
Print Assumptions C87_blocked_matrix.

(** From the initial state, after any updates with weights that are not negative, this is a symmetric map whose quadratic form is at least damping times the squared length. *)
Theorem C87_blocked_positive q exact0 approx st0 bs st damping exact cached v w : qmc_init exact0 approx = Some st0 -> (forall b, In b bs -> 0 <= qb_old b /\ 0 <= qb_new b) ->
  qmc_updates q st0 bs = Some st ->
  exists fv fw, qmc_multiply_matpower q st v damping 1 exact cached = Some fv /\ qmc_multiply_matpower q st w damping 1 exact cached = Some fw /\
    inner q w fv = inner q fw v /\ damping * inner q v v <= inner q v fv.
Proof.
  intros I0 NN U.
  assert (GG : (forall j, gram (mas_value (qs_inputs st) j)) /\ (forall j, gram (mas_value (qs_outputs st) j))).
  { destruct (qmc_updates_spec q bs st0) as (st' & E & _ & W1 & W2 & Iv & Ov). rewrite U in E. injection E as <-.
    assert (Z : ma_weight (qs_inputs st0) = 0 /\ ma_weight (qs_outputs st0) = 0 /\ (forall j i k, ma_raw (qs_inputs st0) j i k = 0) /\ (forall j i k, ma_raw (qs_outputs st0) j i k = 0)).
    { unfold qmc_init in I0. destruct exact0; [|discriminate]. destruct (zero_cache approx); [|discriminate]. injection I0 as <-. cbn. auto. }
    destruct Z as (Z1 & Z2 & Z3 & Z4). pose proof (qmc_weights_nonneg bs NN) as WN.
    assert (Wp : 0 <= lsum (qmc_weights bs)) by (apply lsum_nonneg; exact WN).
    assert (Ip : 0 <= / lsum (qmc_weights bs)) by (destruct (Req_dec (lsum (qmc_weights bs)) 0) as [->|N]; [rewrite Rinv_0; lra|left; apply Rinv_0_lt_compat; lra]).
    split; intros j.
    - apply (gram_ext (fun i k => weighted (qmc_weights bs) (map (fun a : matrix => a i k) (map (fun b => qmc_moment b (fun t e c => qb_x b t e j c)) bs)) * / lsum (qmc_weights bs))).
      + intros i k. unfold mas_value. rewrite W1, Iv, Z1, Z3, !Rmult_0_l, !Rplus_0_l, map_map. reflexivity.
      + apply (gram_scale (fun i k => weighted (qmc_weights bs) (map (fun a : matrix => a i k) (map (fun b => qmc_moment b (fun t e c => qb_x b t e j c)) bs)))); [exact Ip|]. apply weighted_gram; [exact WN|].
        intros a Ha. apply in_map_iff in Ha. destruct Ha as (b & <- & _). apply qmc_moment_gram.
    - apply (gram_ext (fun i k => weighted (qmc_weights bs) (map (fun a : matrix => a i k) (map (fun b => qmc_moment b (qmc_merged q b j)) bs)) * / lsum (qmc_weights bs))).
      + intros i k. unfold mas_value. rewrite W2, Ov, Z2, Z4, !Rmult_0_l, !Rplus_0_l, map_map. reflexivity.
      + apply (gram_scale (fun i k => weighted (qmc_weights bs) (map (fun a : matrix => a i k) (map (fun b => qmc_moment b (qmc_merged q b j)) bs)))); [exact Ip|]. apply weighted_gram; [exact WN|].
        intros a Ha. apply in_map_iff in Ha. destruct Ha as (b & <- & _). apply qmc_moment_gram. }
  destruct GG as [Ga Gb].
  destruct (C87_blocked_matrix q st v damping exact cached) as (fv & Ev & Sv). destruct (C87_blocked_matrix q st w damping exact cached) as (fw & Ew & Sw).
  exists fv, fw. split; [exact Ev|]. split; [exact Ew|]. split.
  - rewrite (inner_comm q fw v), (inner_same q w _ _ Sv), (inner_same q v _ _ Sw), !inner_plus, !inner_form, (inner_comm q w v). f_equal.
    apply Rsum_ext. intros j _. apply form_sym; apply gram_sym; [apply Ga|apply Gb].
  - rewrite (inner_same q v _ _ Sv), inner_plus, inner_form. assert (0 <= Rsum (q_j q) (fun j => form (q_k q) (q_m q * q_n q) (mas_value (qs_inputs st) j) (mas_value (qs_outputs st) j) (to_jkmn q v j) (to_jkmn q v j))); [|lra].
    apply Rsum_nonneg. intros j _. apply form_gram; [apply Ga|apply Gb].
Qed.
Print Assumptions C87_blocked_positive.

(** After the cache is updated with a function that inverts both factors, power -1 undoes power 1 without damping. *)
Theorem C87_blocked_inverse q st inverse damping st' w fw : qmc_update_cache inverse st damping [] [(-1)%Z] = Some st' ->
  (forall j, (j < q_j q)%nat -> let (ia, ib) := inverse (mas_value (qs_inputs st) j) (mas_value (qs_outputs st) j) damping in
     right_inverse (q_k q) ia (mas_value (qs_inputs st) j) /\ right_inverse (q_m q * q_n q) (mas_value (qs_outputs st) j) ib) ->
  qmc_multiply_matpower q st w 0 1 false true = Some fw ->
  exists v, qmc_multiply_matpower q st' fw damping (-1) false true = Some v /\ same_array q v w.
Proof.
  intros U Inv Ew. unfold qmc_update_cache, fill_cache in U. cbn [Z.eqb Pos.eqb] in U.
  change (-1 =? -1)%Z with true in U. cbv iota in U.
  destruct (lookup_power (-1) (qs_cache st)) as [old|] eqn:L; [|discriminate]. injection U as <-.
  unfold qmc_multiply_matpower. change (-1 =? 1)%Z with false. cbv iota. cbn [negb qs_cache].
  assert (LS : forall c v, lookup_power (-1) c <> None -> lookup_power (-1) (set_power (-1) v c) = Some v).
  { clear. induction c as [|[p u] c IH]; intros v H; [destruct (H eq_refl)|]. cbn [set_power lookup_power] in *. destruct (Z.eqb (-1) p) eqn:E; cbn [lookup_power]; rewrite E; [reflexivity|apply IH; exact H]. }
  rewrite LS by (rewrite L; discriminate). eexists. split; [reflexivity|].
  injection Ew as <-.
  intros k m j n Hk Hm Hj Hn.
  rewrite <- (inverse_product q (mas_value (qs_inputs st)) (mas_value (qs_outputs st))
     (fun j => fst (inverse (mas_value (qs_inputs st) j) (mas_value (qs_outputs st) j) damping)) (fun j => snd (inverse (mas_value (qs_inputs st) j) (mas_value (qs_outputs st) j) damping)) w) with (k := k) (m := m) (j := j) (n := n); try assumption.
  - f_equal. f_equal. f_equal. f_equal. extensionality k0. extensionality m0. extensionality j0. extensionality n0. ring.
  - intros j0 Hj0. specialize (Inv j0 Hj0). destruct (inverse _ _ damping) as [ia ib]. apply Inv.
  - intros j0 Hj0. specialize (Inv j0 Hj0). destruct (inverse _ _ damping) as [ia ib]. apply Inv.
Qed.
Print Assumptions C87_blocked_inverse.

(** What is not implemented raises: exact powers, powers other than 1 and -1, powers other than 1 without the cache. *)
Theorem C87_blocked_unsupported q st w damping : 
  (forall p exact approx, qmc_init (p :: exact) approx = None) /\
  (forall p approx, In p approx -> p <> (-1)%Z -> qmc_init [] approx = None) /\
  (forall exact approx st0, qmc_init exact approx = Some st0 -> exact = [] /\ forall p, In p approx -> p = (-1)%Z) /\
  (forall power cached, power <> 1%Z -> qmc_multiply_matpower q st w damping power true cached = None) /\
  (forall power exact, power <> 1%Z -> qmc_multiply_matpower q st w damping power exact false = None) /\
  (forall exact approx st0 bs st1 power, qmc_init exact approx = Some st0 -> qmc_updates q st0 bs = Some st1 -> power <> 1%Z ->
     qmc_multiply_matpower q st1 w damping power false true = None <-> ~ In power approx).
Proof.
  assert (Z0 : forall approx p, In p approx -> p <> (-1)%Z -> zero_cache approx = None).
  { induction approx as [|a approx IH]; intros p Hp N; [destruct Hp|]. cbn. destruct (Z.eqb_spec a (-1)) as [->|X]; [|reflexivity]. destruct Hp as [Hp|Hp]; [destruct (N (eq_sym Hp))|]. rewrite (IH p Hp N). reflexivity. }
  split; [reflexivity|]. split; [intros p approx Hp N; cbn; rewrite (Z0 approx p Hp N); reflexivity|].
  assert (C : forall exact approx st0, qmc_init exact approx = Some st0 -> exact = [] /\ forall p, In p approx -> p = (-1)%Z).
  { intros exact approx st0 H. destruct exact as [|e exact]; [|discriminate]. split; [reflexivity|]. intros p Hp. destruct (Z.eq_dec p (-1)) as [E|N]; [exact E|]. cbn in H. rewrite (Z0 approx p Hp N) in H. discriminate. }
  split; [exact C|]. split.
  { intros power cached N. unfold qmc_multiply_matpower. destruct (Z.eqb_spec power 1); [contradiction|reflexivity]. }
  split.
  { intros power exact N. unfold qmc_multiply_matpower. destruct (Z.eqb_spec power 1); [contradiction|]. destruct exact; reflexivity. }
  intros exact approx st0 bs st1 power I0 U N. unfold qmc_multiply_matpower. destruct (Z.eqb_spec power 1); [contradiction|]. cbn [negb].
  destruct (qmc_updates_spec q bs st0) as (st' & E & Ca & _). rewrite U in E. injection E as <-. rewrite Ca.
  assert (L : lookup_power power (qs_cache st0) = None <-> ~ In power approx).
  { destruct (C _ _ _ I0) as [-> A]. cbn in I0. clear C U Ca N n Z0. revert st0 I0 A. induction approx as [|a approx IH]; intros st0 I0 A; cbn in I0.
    - injection I0 as <-. cbn. tauto.
    - rewrite (A a (or_introl eq_refl)) in I0. cbn in I0. destruct (zero_cache approx) as [c|] eqn:Ec; [|discriminate]. injection I0 as <-. cbn [qs_cache lookup_power].
      destruct (Z.eqb_spec power (-1)) as [->|N]; [split; [discriminate|intros H; exfalso; apply H; left; apply A; left; reflexivity]|].
      specialize (IH _ eq_refl (fun p Hp => A p (or_intror Hp))). cbn in IH. rewrite IH. rewrite (A a (or_introl eq_refl)). split; [intros H [Hp|Hp]; [apply N; symmetry; exact Hp|exact (H Hp)]|intros H Hp; apply H; right; exact Hp]. }
  rewrite <- L. destruct (lookup_power power (qs_cache st0)) as [[a b]|]; split; intros; congruence.
Qed.
Print Assumptions C87_blocked_unsupported.

(** ** Examples *)
(** Two walkers with three particles each, two features, one output, with a bias; two updates with weights 0.95 and 0.05, then 0.9 and 0.1. *)
Definition ex_batch (a o n : R) : batch :=
  {| b_x := {| rshape := [2; 3; 2]%nat; rentry := fun i => a + INR (nth 0 i O) + INR (nth 1 i O) |}; b_dy := {| rshape := [1; 3; 2]%nat; rentry := fun i => INR (nth 2 i O) - a |}; b_old := o; b_new := n; b_size := 2 |}.
Example C87_example : exists st, updates true no_factors [ex_batch 1 0.95 0.05; ex_batch 2 0.9 0.1] = Some st /\
  symmetric 3 (ma_value (inputs_factor st)) /\ positive_semidefinite 3 (ma_value (inputs_factor st)) /\ symmetric 1 (ma_value (outputs_factor st)) /\ positive_semidefinite 1 (ma_value (outputs_factor st)).
Proof.
  apply (C87_positive true 2 1 _ [[3; 2]%nat; [3; 2]%nat]); try lia.
  - constructor; [|constructor; [|constructor]]; (split; [reflexivity|]; split; [reflexivity|]; split; [discriminate|]; split; [reflexivity|]; intros n [<-|[<-|[]]]; lia).
  - intros b [<-|[<-|[]]]; cbn; lra.
  - cbn. lra.
Qed.
Example C87_scale_example : repeated_fixed_scale [5; 3; 4; 2]%nat = Some 12%nat.
Proof. reflexivity. Qed.
(** A block with k = 1, m = 1, j = 1, n = 2, one batch; its output factor is diag(4, 9), which the given function inverts. *)
Definition ex_q : qmc_dims := {| q_k := 1; q_m := 1; q_j := 1; q_n := 2 |}.
Definition ex_qb : qmc_batch :=
  {| qb_x := fun _ _ _ _ => 1; qb_dy := fun t _ _ _ n => if Nat.eqb t n then (if Nat.eqb n 0 then 2 else 3) else 0; qb_n := 2; qb_i := 1; qb_old := 0; qb_new := 1 |}.
Example C87_blocked_example : exists st0 st st', qmc_init [] [(-1)%Z] = Some st0 /\ qmc_updates ex_q st0 [ex_qb] = Some st /\
  let inverse := fun (a b : matrix) (_ : R) => ((fun i k => if Nat.eqb i k then / a i i else 0) : matrix, (fun i k => if Nat.eqb i k then / b i i else 0) : matrix) in
  qmc_update_cache inverse st 0 [] [(-1)%Z] = Some st' /\
  (forall j, (j < q_j ex_q)%nat -> let (ia, ib) := inverse (mas_value (qs_inputs st) j) (mas_value (qs_outputs st) j) 0 in
     right_inverse (q_k ex_q) ia (mas_value (qs_inputs st) j) /\ right_inverse (q_m ex_q * q_n ex_q) (mas_value (qs_outputs st) j) ib).
Proof.
  do 3 eexists. split; [reflexivity|]. split; [reflexivity|]. cbv zeta. split; [reflexivity|]. intros j Hj. split; intros i k Hi' Hk'; cbn in Hi', Hk'.
  - assert (E1 : i = O) by lia. assert (E2 : k = O) by lia. subst i k. cbn. field. unfold mas_value, mas_update. cbn. match goal with |- ?x <> 0 => replace x with 1 by field end. lra.
  - destruct i as [|[|i]]; [| |lia]; (destruct k as [|[|k]]; [| |lia]); cbn; unfold mas_value, mas_update; cbn.
    all: field.
Qed.
