(** * Theorems about the optimisers: C56-C61 *)
From Coq Require Import String Reals List Arith Bool Lia Lra.
From Verif Require Import XReal Rsum M_io M_vmc M_mcmc M_optim M_keys S_mcmc S_optim P_walkers P_keys P_optim1 P_optim2 P_optim3.
Import ListNotations.
Local Open Scope R_scope.

(** ** C56 *)
(** The direction (momentum 0) is the unique minimiser of the damped least-squares problem in parameter space. *)
Theorem C56_unique_minimiser : forall n np damping mu dlog energies prev, (0 < n)%nat -> 0 < damping ->
  let d := spring_update n np damping mu 0 dlog energies prev in
  forall other, spring_objective n np damping mu dlog energies prev d <= spring_objective n np damping mu dlog energies prev other /\
    (spring_objective n np damping mu dlog energies prev other <= spring_objective n np damping mu dlog energies prev d -> agree np other d).
Proof. intros n np damping mu dlog energies prev Hn Hd d other. exact (spring_minimises n np damping mu dlog energies prev other Hn Hd). Qed.
Print Assumptions C56_unique_minimiser.

(** The normal equations of the property's statement, with O the centred log-derivatives over sqrt n. *)
Theorem C56_normal_equations : forall n np damping mu dlog energies prev, (0 < n)%nat -> 0 < damping ->
  let O i k := (dlog i k - average n (fun j => dlog j k)) / sqrt (INR n) in
  let eps i := energies i / sqrt (INR n) in
  let d := spring_update n np damping mu 0 dlog energies prev in
  forall k, Rsum n (fun i => O i k * Rsum np (fun l => O i l * d l)) + damping * d k
          = Rsum n (fun i => O i k * eps i) + damping * mu * prev k.
Proof.
  intros n np damping mu dlog energies prev Hn Hd O eps d k.
  pose proof (spring_normal n np damping mu dlog energies prev Hn Hd k) as N. cbv zeta in N. unfold vecmat, matvec in N.
  assert (E : forall i l, O i l = spring_ohat n dlog i l) by (intros; unfold O; rewrite ohat_average by assumption; reflexivity).
  rewrite (Rsum_ext n _ (fun i => spring_ohat n dlog i k * Rsum np (fun l => spring_ohat n dlog i l * d l)))
    by (intros i _; rewrite E; f_equal; apply Rsum_ext; intros; rewrite E; reflexivity).
  rewrite (Rsum_ext n (fun i => O i k * eps i) (fun i => spring_ohat n dlog i k * spring_rhs n energies i)) by (intros i _; rewrite E; reflexivity).
  unfold d. change (spring_update n np damping mu 0 dlog energies prev) with (spring_dtheta n np damping mu dlog energies prev). lra.
Qed.
Print Assumptions C56_normal_equations.

(** With momentum the result is the mixture with the previous direction; a common shift of all energies changes nothing. *)
Theorem C56_momentum_and_shift : forall n np damping mu momentum dlog energies prev c, (0 < n)%nat -> 0 < damping ->
  (forall k, spring_update n np damping mu momentum dlog energies prev k
     = (1 - momentum) * spring_update n np damping mu 0 dlog energies prev k + momentum * prev k) /\
  agree np (spring_update n np damping mu momentum dlog (fun i => energies i + c) prev)
           (spring_update n np damping mu momentum dlog energies prev).
Proof.
  intros n np damping mu momentum dlog energies prev c Hn Hd. split; [intros; apply spring_update_momentum|].
  intros k Hk. rewrite !spring_update_momentum. rewrite (spring_shift n np damping mu dlog energies prev c Hn Hd k Hk). reflexivity.
Qed.
Print Assumptions C56_momentum_and_shift.

(** The remembered previous direction is the raw one: neither the learning rate nor the norm constraint enters it. *)
Theorem C56_remembered_direction : forall n np damping mu momentum c schedule dlog energies params s k,
  let dir := spring_update n np damping mu momentum dlog energies (trace s) in
  trace (snd (spring_step n np damping mu momentum schedule dlog energies params s)) k = dir k /\
  trace (snd (spring_step_constrained n np damping mu momentum c schedule dlog energies params s)) k = dir k /\
  fst (spring_step n np damping mu momentum schedule dlog energies params s) k = params k - schedule (count s) * dir k /\
  count (snd (spring_step n np damping mu momentum schedule dlog energies params s)) = S (count s).
Proof.
  intros. unfold spring_step, spring_step_constrained. cbn [sgd_update fst snd trace count]. fold dir.
  repeat split; try ring.
Qed.
Print Assumptions C56_remembered_direction.

(** Two walkers, one parameter, log-derivatives 0 and 1, energies -1 and 1, damping 1: the direction is 2/5. *)
Definition two_dlog (i k : nat) : R := INR i.
Definition two_energies (i : nat) : R := match i with O => -1 | _ => 1 end.
Example C56_example : spring_update 2 1 1 (1/2) 0 two_dlog two_energies (fun _ => 0) 0 = 2 / 5.
Proof.
  pose proof (C56_normal_equations 2 1 1 (1/2) two_dlog two_energies (fun _ => 0) ltac:(lia) ltac:(lra) 0%nat) as N.
  cbv zeta in N. set (d := spring_update _ _ _ _ _ _ _ _) in *.
  unfold average, two_dlog, two_energies in N. cbn [Rsum INR] in N.
  assert (Sq : / sqrt (1 + 1) * / sqrt (1 + 1) = / 2) by (rewrite <- Rinv_mult, sqrt_sqrt by lra; f_equal; ring).
  set (q := / sqrt (1 + 1)) in *. unfold Rdiv in N. fold q in N.
  assert (E : d 0%nat * (/ 4 + 1) = / 2).
  { replace (/ 2) with (q * q) by exact Sq. nra. }
  lra.
Qed.

(** ** C57 *)
(** All devices use one factor in (0,1]: nothing changes when the squared norm (averaged over the devices) is within the
    constraint, otherwise the constraint is met with equality. *)
Theorem C57_norm_constraint : forall np c (grads : list (nat -> R)), 0 < c ->
  exists t, 0 < t <= 1 /\
    constrain_norm_spring np c grads = map (fun g k => Fin (t * g k)) grads /\
    avg_list (map (fun g => sq_norm np (fun k => t * g k)) grads) <= c /\
    (avg_list (map (sq_norm np) grads) <= c -> t = 1) /\
    (c < avg_list (map (sq_norm np) grads) -> avg_list (map (fun g => sq_norm np (fun k => t * g k)) grads) = c).
Proof.
  intros np c grads Hc. unfold constrain_norm_spring.
  set (q := lmean (map (fun g => inner np g g) grads)).
  assert (Hq : 0 <= q) by (apply lmean_nonneg; intros x Hx; apply in_map_iff in Hx; destruct Hx as (g & <- & _); apply inner_nonneg).
  destruct (coefficient_ok c q Hc Hq) as (t & E & Ht & Hle & H1 & H2).
  assert (Eq : avg_list (map (sq_norm np) grads) = q).
  { unfold q. change lmean with avg_list. f_equal. apply map_ext. intros g. apply sq_norm_inner. }
  assert (Et : avg_list (map (fun g => sq_norm np (fun k => t * g k)) grads) = t ^ 2 * q).
  { unfold q. rewrite <- lmean_scal. change lmean with avg_list. f_equal. apply map_ext. intros g. rewrite sq_norm_inner. apply inner_scaled. }
  exists t. rewrite Eq, Et. split; [exact Ht|]. split; [|auto]. apply map_ext. intros g. rewrite E. reflexivity.
Qed.
Print Assumptions C57_norm_constraint.

(** On identical replicas every device's own update is within the constraint. *)
Theorem C57_single : forall np c (g : nat -> R) ndev, 0 < c -> (0 < ndev)%nat ->
  exists t, 0 < t <= 1 /\ constrain_norm_spring np c (repeat g ndev) = repeat (fun k => Fin (t * g k)) ndev /\
    sq_norm np (fun k => t * g k) <= c /\ (sq_norm np g <= c -> t = 1) /\ (c < sq_norm np g -> sq_norm np (fun k => t * g k) = c).
Proof.
  intros np c g ndev Hc Hn. destruct (C57_norm_constraint np c (repeat g ndev) Hc) as (t & Ht & E & H).
  assert (M : forall (f : (nat -> R) -> R), avg_list (map f (repeat g ndev)) = f g).
  { intros f. unfold avg_list. rewrite map_length, repeat_length.
    assert (L : lsum (map f (repeat g ndev)) = INR ndev * f g) by (clear; induction ndev as [|n IH]; [cbn; ring|]; rewrite S_INR; cbn [repeat map lsum fold_right]; fold (lsum (map f (repeat g n))); rewrite IH; ring).
    rewrite L. field. apply not_0_INR. lia. }
  rewrite !M in H. exists t. split; [exact Ht|]. split; [|exact H]. rewrite E. clear. induction ndev; cbn; [|rewrite IHndev]; reflexivity.
Qed.
Print Assumptions C57_single.

(** FALSE: "with several devices each device's own update is within the constraint" - only the average is. *)
Theorem C57_each_device_refuted : ~ (forall np c (grads : list (nat -> R)) t, 0 < c ->
  constrain_norm_spring np c grads = map (fun g k => Fin (t * g k)) grads -> forall g, In g grads -> sq_norm np (fun k => t * g k) <= c).
Proof.
  intros H. destruct (C57_norm_constraint 1 1 [fun _ => 0; fun _ => 2] Rlt_0_1) as (t & Ht & E & _ & _ & He).
  specialize (H 1%nat 1 [fun _ => 0; fun _ => 2] t Rlt_0_1 E (fun _ => 2) ltac:(right; left; reflexivity)).
  unfold avg_list, sq_norm in *. cbn [map lsum fold_right length Rsum INR] in *. assert (K := He ltac:(lra)). lra.
Qed.
Print Assumptions C57_each_device_refuted.

(** FALSE: "all replicas of the parameters stay equal".  Each device takes its own step from its own walkers, so devices
    that start with the same parameters and optimiser state end with different ones. *)
Theorem C57_replicas_refuted : ~ (forall n np damping mu momentum schedule (devices : list ((nat -> nat -> R) * (nat -> R))) params s,
  (0 < n)%nat -> 0 < damping -> forall a b, In a devices -> In b devices ->
  agree np (fst (spring_step n np damping mu momentum schedule (fst a) (snd a) params s))
           (fst (spring_step n np damping mu momentum schedule (fst b) (snd b) params s))).
Proof.
  intros H.
  specialize (H 2%nat 1%nat 1 (1/2) 0 (fun _ => 1) [(two_dlog, two_energies); (two_dlog, fun _ => 0)] (fun _ => 0) sgd_init
    ltac:(lia) ltac:(lra) (two_dlog, two_energies) (two_dlog, fun _ => 0) ltac:(left; reflexivity) ltac:(right; left; reflexivity) 0%nat ltac:(lia)).
  cbn [fst snd] in H.
  destruct (C56_remembered_direction 2 1 1 (1/2) 0 1 (fun _ => 1) two_dlog two_energies (fun _ => 0) sgd_init 0) as (_ & _ & E1 & _).
  destruct (C56_remembered_direction 2 1 1 (1/2) 0 1 (fun _ => 1) two_dlog (fun _ => 0) (fun _ => 0) sgd_init 0) as (_ & _ & E2 & _).
  rewrite E1, E2 in H. cbn [trace sgd_init] in H. rewrite C56_example in H.
  pose proof (C56_unique_minimiser 2 1 1 (1/2) two_dlog (fun _ => 0) (fun _ => 0) ltac:(lia) ltac:(lra) (fun _ => 0)) as [_ U].
  assert (Z : agree 1 (fun _ => 0) (spring_update 2 1 1 (1/2) 0 two_dlog (fun _ => 0) (fun _ => 0))).
  { apply U. unfold spring_objective, average at 1 3. cbn [Rsum INR].
    match goal with |- ?a <= ?b => assert (a = 0) by (field); assert (0 <= b) end; [|lra].
    apply Rplus_le_le_0_compat; [apply Rmult_le_pos; [|lra]|]; repeat first [apply Rplus_le_le_0_compat | apply pow2_ge_0 | apply Rmult_le_pos | lra]. }
  specialize (Z 0%nat ltac:(lia)). cbv beta in Z. rewrite <- Z in H. lra.
Qed.
Print Assumptions C57_replicas_refuted.

Example C57_example : constrain_norm_spring 2 1 [fun k => match k with O => 3 | _ => 4 end] <> [fun _ => NaN] /\
  exists t, 0 < t <= 1 /\ sq_norm 2 (fun k => t * match k with O => 3 | _ => 4 end) = 1.
Proof.
  destruct (C57_single 2 1 (fun k => match k with O => 3 | _ => 4 end) 1 Rlt_0_1 ltac:(lia)) as (t & Ht & E & _ & _ & H).
  cbn [repeat] in E. split.
  - rewrite E. intros C. injection C as C. apply (f_equal (fun f => f 0%nat)) in C. discriminate.
  - exists t. split; [exact Ht|]. apply H. unfold sq_norm. cbn. lra.
Qed.

(** ** C58 *)
Theorem C58_operators_agree : forall np damping m (shards : list (list (nat -> R))) x,
  (0 < m)%nat -> shards <> [] -> (forall s, In s shards -> length s = m) ->
  agree np (lazy_fisher_apply np damping shards x) (fisher np damping (concat shards) x) /\
  agree np (debug_fisher_apply np damping shards x) (fisher np damping (concat shards) x).
Proof.
  intros np damping m shards x Hm Hs Hl. split; intros k _; [apply (lazy_is_fisher np m) | apply (debug_is_fisher np m)]; assumption.
Qed.
Print Assumptions C58_operators_agree.

(** The operator is symmetric and bounded below by the damping, and with damping > 0 every system has exactly one solution. *)
Theorem C58_positive_definite : forall np damping (walkers : list (nat -> R)),
  (forall x y, Rsum np (fun k => x k * fisher np damping walkers y k) = Rsum np (fun k => fisher np damping walkers x k * y k)) /\
  (forall x, damping * sq_norm np x <= Rsum np (fun k => x k * fisher np damping walkers x k)) /\
  (0 < damping -> forall b, exists s, agree np (fisher np damping walkers s) b /\
     forall s', agree np (fisher np damping walkers s') b -> agree np s' s).
Proof.
  intros np damping W. split; [|split].
  - intros x y. apply (A_self np (fisher np damping W) (fisher_matrix damping W)); [intros z k Hk; apply fisher_matvec; exact Hk | apply fisher_symm].
  - intros x. rewrite sq_norm_inner. apply fisher_lower.
  - intros Hd b. exists (pos_solve np (fisher_matrix damping W) b).
    assert (E : agree np (fisher np damping W (pos_solve np (fisher_matrix damping W) b)) b).
    { intros k Hk. rewrite fisher_matvec by assumption. apply pos_solve_ok; [apply fisher_symm | apply fisher_posdef; exact Hd | exact Hk]. }
    split; [exact E|]. intros s' Hs. apply (posdef_unique np (fisher_matrix damping W)); [apply fisher_posdef; exact Hd|].
    intros k Hk. rewrite <- !fisher_matvec by assumption. rewrite Hs, E by assumption. reflexivity.
Qed.
Print Assumptions C58_positive_definite.

Lemma mode_is_fisher mode np damping m shards x : (0 < m)%nat -> shards <> [] -> (forall s, In s shards -> length s = m) ->
  agree np (match mode with LAZY => lazy_fisher_apply np damping shards x | DEBUG => debug_fisher_apply np damping shards x end) (fisher np damping (concat shards) x).
Proof. intros Hm Hs Hl. destruct (C58_operators_agree np damping m shards x Hm Hs Hl) as [A B]. destruct mode; assumption. Qed.

(** In either mode, unless the caller allows fewer than [np] iterations, the returned direction solves the damped system to
    relative accuracy 1e-5, hence is within 1e-5 |grad| / damping of the exact solution. *)
Theorem C58_direction : forall mode np damping maxiter m (shards : list (list (nat -> R))) grad,
  0 < damping -> (0 < m)%nat -> shards <> [] -> (forall s, In s shards -> length s = m) ->
  (match maxiter with Some i => np <= i | None => True end)%nat ->
  let x := precondition_grad_with_fisher mode np damping maxiter shards grad in
  sq_norm np (fun k => grad k - fisher np damping (concat shards) x k) <= (/ 100000) ^ 2 * sq_norm np grad /\
  forall xs, agree np (fisher np damping (concat shards) xs) grad ->
    damping ^ 2 * sq_norm np (fun k => x k - xs k) <= (/ 100000) ^ 2 * sq_norm np grad.
Proof.
  intros mode np damping maxiter m shards grad Hd Hm Hs Hl Hi x. set (W := concat shards).
  pose (A := match mode with LAZY => lazy_fisher_apply np damping shards | DEBUG => debug_fisher_apply np damping shards end).
  assert (HA : forall y, agree np (A y) (fisher np damping W y)).
  { intros y. pose proof (mode_is_fisher mode np damping m shards y Hm Hs Hl) as E. unfold A. destruct mode; exact E. }
  assert (HM : forall y, agree np (A y) (matvec np (fisher_matrix damping W) y)).
  { intros y k Hk. rewrite HA, fisher_matvec by assumption. reflexivity. }
  pose proof (cg_accurate np A (fisher_matrix damping W) grad grad HM (fisher_symm np damping W) (fisher_posdef np damping W Hd) maxiter Hi) as Acc.
  cbv zeta in Acc. change (cg np A grad grad maxiter) with x in Acc. unfold cg_tol2 in Acc.
  assert (Res : sq_norm np (fun k => grad k - fisher np damping W x k) <= (/ 100000) ^ 2 * sq_norm np grad).
  { rewrite !sq_norm_inner. eapply Rle_trans; [right|exact Acc]. apply inner_ext; intros k Hk; rewrite HA by assumption; reflexivity. }
  split; [exact Res|]. intros xs Hx.
  pose (e := fun k => x k - xs k). pose (r := fun k => grad k - fisher np damping W x k). fold e.
  assert (Fe : agree np (fisher np damping W e) (fun k => -1 * r k)).
  { intros k Hk. unfold r. rewrite <- Hx by assumption. rewrite !fisher_matvec by assumption. unfold e. rewrite matvec_sub. ring. }
  pose proof (fisher_lower np damping W e) as Lo.
  rewrite (inner_ext np e e (fisher np damping W e) (fun k => -1 * r k) ltac:(intros k _; reflexivity) Fe), inner_scal_r in Lo.
  pose proof (inner_nonneg np (fun k => damping * e k + r k)) as Sq.
  rewrite inner_add_r, !inner_add_l, !inner_scal_r, !inner_scal_l, (inner_sym np r e) in Sq.
  rewrite sq_norm_inner. rewrite (sq_norm_inner np (fun k => grad k - fisher np damping W x k)) in Res. fold r in Res.
  pose proof (inner_nonneg np e). nra.
Qed.
Print Assumptions C58_direction.

(** With any iteration limit the direction is at least as close to the solution, in the norm of the operator, as the starting
    point, which is the gradient itself. *)
Theorem C58_truncated : forall mode np damping maxiter m (shards : list (list (nat -> R))) grad xs,
  0 < damping -> (0 < m)%nat -> shards <> [] -> (forall s, In s shards -> length s = m) ->
  agree np (fisher np damping (concat shards) xs) grad ->
  let x := precondition_grad_with_fisher mode np damping maxiter shards grad in
  let size e := Rsum np (fun k => e k * fisher np damping (concat shards) e k) in
  size (fun k => x k - xs k) <= size (fun k => grad k - xs k).
Proof.
  intros mode np damping maxiter m shards grad xs Hd Hm Hs Hl Hx x size. set (W := concat shards) in *.
  pose (A := match mode with LAZY => lazy_fisher_apply np damping shards | DEBUG => debug_fisher_apply np damping shards end).
  assert (HA : forall y, agree np (A y) (fisher np damping W y)).
  { intros y. pose proof (mode_is_fisher mode np damping m shards y Hm Hs Hl) as E. unfold A. destruct mode; exact E. }
  assert (HM : forall y, agree np (A y) (matvec np (fisher_matrix damping W) y)).
  { intros y k Hk. rewrite HA, fisher_matvec by assumption. reflexivity. }
  assert (Hxs : agree np (A xs) grad) by (intros k Hk; rewrite HA by assumption; apply Hx; exact Hk).
  pose proof (cg_error np A (fisher_matrix damping W) grad grad HM (fisher_symm np damping W) (fisher_posdef np damping W Hd) maxiter xs Hxs) as E.
  cbv zeta in E. change (cg np A grad grad maxiter) with x in E.
  assert (Es : forall e, size e = inner np e (A e)).
  { intros e. unfold size. apply inner_ext; intros k Hk; [reflexivity | symmetry; apply HA; exact Hk]. }
  rewrite !Es. exact E.
Qed.
Print Assumptions C58_truncated.

(** Two devices with two walkers each and one parameter. *)
Example C58_example :
  let shards := [[fun _ => 0; fun _ => 1]; [fun _ => 2; fun _ => 5]] in
  fisher 1 1 (concat shards) (fun _ => 1) 0 = 9 / 2 /\
  lazy_fisher_apply 1 1 shards (fun _ => 1) 0 = 9 / 2 /\
  sq_norm 1 (fun k => 9 - fisher 1 1 (concat shards) (precondition_grad_with_fisher LAZY 1 1 None shards (fun _ => 9)) k) <= (/ 100000) ^ 2 * 81.
Proof.
  intros shards. 
  assert (Hl : forall s, In s shards -> length s = 2%nat) by (intros s [<-|[<-|[]]]; reflexivity).
  assert (E : fisher 1 1 (concat shards) (fun _ => 1) 0 = 9 / 2).
  { unfold fisher, covariance, avg_list. cbn. field. }
  destruct (C58_operators_agree 1 1 2 shards (fun _ => 1) ltac:(lia) ltac:(discriminate) Hl) as [A _].
  split; [exact E|]. split; [rewrite A by lia; exact E|].
  destruct (C58_direction LAZY 1 1 None 2 shards (fun _ => 9) Rlt_0_1 ltac:(lia) ltac:(discriminate) Hl I) as [B _].
  eapply Rle_trans; [exact B|]. right. unfold sq_norm. cbn. ring.
Qed.

(** ** C59 *)
(** One factor in (0,1] for all devices: [grads] pairs each device's gradient with its preconditioned gradient. *)
Theorem C59_norm_constraint : forall np lr c (grads : list ((nat -> R) * (nat -> R))), 0 < c ->
  let q t := avg_list (map (fun gp => Rsum np (fun k => (t * snd gp k) * (t * fst gp k)) * lr ^ 2) grads) in
  0 <= q 1 ->
  exists t, 0 < t <= 1 /\ constrain_norm_sr np lr c grads = map (fun gp k => Fin (t * snd gp k)) grads /\
    q t <= c /\ (q 1 <= c -> t = 1) /\ (c < q 1 -> q t = c).
Proof.
  intros np lr c grads Hc q Hq. unfold constrain_norm_sr.
  set (q0 := lmean (map (fun p => inner np (snd p) (fst p) * lr ^ 2) grads)).
  assert (Eq : forall t, q t = t ^ 2 * q0).
  { intros t. unfold q, q0. rewrite <- lmean_scal. change lmean with avg_list. f_equal. apply map_ext. intros p.
    change (Rsum np (fun k => t * snd p k * (t * fst p k))) with (inner np (fun k => t * snd p k) (fun k => t * fst p k)).
    rewrite inner_scaled. ring. }
  rewrite (Eq 1), pow1, Rmult_1_l in *.
  destruct (coefficient_ok c q0 Hc Hq) as (t & E & Ht & Hle & H1 & H2).
  exists t. rewrite Eq. split; [exact Ht|]. split; [|auto]. apply map_ext. intros p. rewrite E. reflexivity.
Qed.
Print Assumptions C59_norm_constraint.

(** When the preconditioned gradient solves the damped Fisher system, the constrained step of size lr has squared Fisher norm
    at most the constraint. *)
Theorem C59_fisher_norm : forall np lr c damping walkers grad p, 0 < c -> 0 < damping -> agree np (fisher np damping walkers p) grad ->
  let size e := Rsum np (fun k => e k * fisher np damping walkers e k) in
  exists t, 0 < t <= 1 /\ constrain_norm_sr np lr c [(grad, p)] = [fun k => Fin (t * p k)] /\
    size (fun k => lr * (t * p k)) <= c /\ (size (fun k => lr * p k) <= c -> t = 1) /\
    (c < size (fun k => lr * p k) -> size (fun k => lr * (t * p k)) = c).
Proof.
  intros np lr c damping W grad p Hc Hd Hp size.
  assert (Es : forall a, size (fun k => a * p k) = a ^ 2 * inner np p grad).
  { intros a. unfold size. transitivity (inner np (fun k => a * p k) (fun k => a * grad k)); [|apply inner_scaled].
    apply inner_ext; intros k Hk; [reflexivity|]. rewrite fisher_matvec, matvec_scal, <- fisher_matvec by assumption. rewrite Hp by assumption. reflexivity. }
  assert (Pos : 0 <= inner np p grad).
  { pose proof (fisher_lower np damping W p) as L. rewrite (inner_ext np p p _ grad ltac:(intros k _; reflexivity) Hp) in L.
    pose proof (inner_nonneg np p). nra. }
  assert (Q : forall t, avg_list (map (fun gp => Rsum np (fun k => (t * snd gp k) * (t * fst gp k)) * lr ^ 2) [(grad, p)]) = t ^ 2 * lr ^ 2 * inner np p grad).
  { intros t. unfold avg_list. cbn [map lsum fold_right length INR fst snd].
    change (Rsum np (fun k => t * p k * (t * grad k))) with (inner np (fun k => t * p k) (fun k => t * grad k)). rewrite inner_scaled. field. }
  destruct (C59_norm_constraint np lr c [(grad, p)] Hc) as (t & Ht & E & H1 & H2 & H3).
  { rewrite Q. pose proof (pow2_ge_0 lr). nra. }
  cbv beta zeta in *. rewrite !Q in *. exists t.
  assert (S1 : size (fun k => lr * (t * p k)) = t ^ 2 * lr ^ 2 * inner np p grad).
  { transitivity (size (fun k => (lr * t) * p k)); [|rewrite Es; ring].
    unfold size. apply inner_ext; intros k Hk; [ring|]. rewrite !fisher_matvec by assumption. apply matvec_ext. intros j _. ring. }
  rewrite S1, Es. rewrite pow1, Rmult_1_l in H2, H3. repeat split; try assumption; apply Ht.
Qed.
Print Assumptions C59_fisher_norm.

(** FALSE without a non-negative inner product: the whole update becomes NaN. *)
Theorem C59_negative_inner_product_refuted : forall np lr c grad p, 0 < c -> lr <> 0 -> Rsum np (fun k => p k * grad k) < 0 ->
  constrain_norm_sr np lr c [(grad, p)] = [fun _ => NaN].
Proof.
  intros np lr c grad p Hc Hlr H. unfold constrain_norm_sr. cbn [map fst snd lmean]. unfold lmean. cbn [lsum fold_right length INR].
  rewrite coefficient_nan; [reflexivity | exact Hc |]. unfold inner. assert (L : 0 < lr ^ 2) by (simpl; rewrite Rmult_1_r; apply Rsqr_pos_lt; exact Hlr).
  unfold Rdiv. rewrite Rinv_1, Rmult_1_r, Rplus_0_r. nra.
Qed.
Print Assumptions C59_negative_inner_product_refuted.

Example C59_example : exists t, 0 < t <= 1 /\ constrain_norm_sr 1 1 1 [(fun _ => 9, fun _ => 2)] = [fun k => Fin (t * 2)] /\ t ^ 2 * 18 = 1.
Proof.
  destruct (C59_norm_constraint 1 1 1 [(fun _ => 9, fun _ => 2)] Rlt_0_1) as (t & Ht & E & _ & _ & H).
  - unfold avg_list. cbn. lra.
  - exists t. split; [exact Ht|]. split; [exact E|]. unfold avg_list in H. cbn [map lsum fold_right length INR fst snd Rsum] in H. lra.
Qed.

(** ** C60 *)
Theorem C60_constant : forall lr decay, exists f, learning_rate_schedule "constant" lr decay = Some f /\ forall t, f t = lr.
Proof. intros. eexists. split; reflexivity. Qed.
Print Assumptions C60_constant.

Theorem C60_inverse_time : forall lr decay, 0 < lr -> 0 <= decay ->
  exists f, learning_rate_schedule "inverse_time" lr decay = Some f /\
    f O = lr /\ (forall t, f t = lr / (1 + decay * INR t)) /\ (forall t, 0 < f t) /\
    (forall t t', (t <= t')%nat -> f t' <= f t) /\
    (forall bound, exists N, bound < Rsum N f) /\
    (0 < decay -> forall N, Rsum N (fun t => f t ^ 2) <= lr ^ 2 * (1 + / decay)).
Proof.
  intros lr d Hl Hd. eexists. split; [reflexivity|]. cbv beta.
  split; [cbn; field|]. split; [reflexivity|]. split; [intros; apply rate_pos; assumption|].
  split; [intros; apply rate_mono; assumption|]. split; [intros; apply rate_diverges; assumption|]. intros; apply rate_squares; assumption.
Qed.
Print Assumptions C60_inverse_time.

Theorem C60_rejected : forall name lr decay, name <> "constant"%string -> name <> "inverse_time"%string -> learning_rate_schedule name lr decay = None.
Proof.
  intros name lr decay H1 H2. unfold learning_rate_schedule.
  rewrite (proj2 (String.eqb_neq _ _) H1), (proj2 (String.eqb_neq _ _) H2). reflexivity.
Qed.
Print Assumptions C60_rejected.

Example C60_example : (exists f, learning_rate_schedule "inverse_time" 1 (1/2) = Some f /\ f 4%nat = 1 / 3) /\ learning_rate_schedule "cosine" 1 1 = None.
Proof. split; [eexists; split; [reflexivity|]; cbn; field | reflexivity]. Qed.

(** ** C61 *)
(** A whole training run, with the position-amplitude walkers and either kind of update: every stored amplitude belongs to
    the parameters it is returned or checkpointed with.  Optimiser, energy function and checkpointing options are arbitrary. *)
Theorem C61_training : forall (P M K St Gr : Type) (g : prng K) (psi : P -> list R -> xr) model_apply (get_std : padata M -> R) upd logabs
    nsteps ndev energy_fn (apply : Gr -> P -> St -> list (padata M) -> list (list xr) -> P * St) kfac l1 rec_l1 has_nan (c : cfg (list (padata M))) update,
  good_prng g -> (forall p xs, model_apply p xs = map (psi p) xs) ->
  (forall f, upd = Some f -> forall ms masks, length (f ms masks) = length ms) ->
  (update = grad_update_param_fn g model_apply energy_fn apply l1 rec_l1 \/ update = kfac_update_param_fn g model_apply l1 kfac rec_l1) ->
  forall start nepochs p o datas keys, length datas = length keys -> Forall (consistent psi p) datas ->
  match vmc_loop (walker_fn_pmapped nsteps (pa_step g model_apply get_std upd logabs) ndev) update has_nan c start nepochs p o datas keys with
  | Finished p' _ datas' _ _ ckpts _ => Forall (consistent psi p') datas' /\ Forall (fun w => Forall (consistent psi (c_params (snd w))) (c_data (snd w))) ckpts
  | Raised _ ckpts _ => Forall (fun w => Forall (consistent psi (c_params (snd w))) (c_data (snd w))) ckpts
  end.
Proof.
  intros P M K St Gr g psi model_apply get_std upd logabs nsteps ndev energy_fn apply kfac l1 rec_l1 has_nan c update Hg Hm Hu Hup start nepochs p o datas keys L H.
  pose (J := fun (p : P) (d : list (padata M)) (s : St) (k : list K) => length d = length k /\ Forall (consistent psi p) d).
  assert (V := vmc_J (walker_fn_pmapped nsteps (pa_step g model_apply get_std upd logabs) ndev) update has_nan J).
  specialize (V ltac:(intros p1 d1 s1 k1 [L1 C1]; exact (walker_consistent g psi model_apply get_std upd logabs Hg Hm Hu nsteps ndev p1 d1 k1 L1 C1))).
  assert (JU : forall p d s k, J p d s k -> let '(p', d', s', _, k') := update p d s k in J p' d' s' k').
  { intros p1 d1 s1 k1 [L1 C1]. destruct Hup as [-> | ->].
    - unfold grad_update_param_fn. destruct (energy_fn p1 _ _) as [ed gr]. destruct (apply gr p1 s1 d1 _) as [p2 s2].
      split; [rewrite !map_length; exact L1 | apply update_consistent; exact Hm].
    - unfold kfac_update_param_fn. destruct (kfac p1 s1 _ _) as [[p2 s2] ed]. split; [rewrite !map_length; exact L1 | apply update_consistent; exact Hm]. }
  specialize (V JU c start nepochs p o datas keys (Logic.conj L H)).
  assert (F : forall cs : list (ckpt_write P (list (padata M)) St (list K)), Forall (fun w => Jc J (snd w)) cs ->
     Forall (fun w => Forall (consistent psi (c_params (snd w))) (c_data (snd w))) cs) by (intros cs; apply Forall_impl; intros w [_ Q]; exact Q).
  destruct (vmc_loop _ _ _ _ _ _ _ _ _ _) as [p' o' d' k' nans cs ms | e cs ms].
  - destruct V as [[_ V1] V2]. split; [exact V1 | apply F; exact V2].
  - apply F. exact V.
Qed.
Print Assumptions C61_training.

(** A whole evaluation run: it never fails, returns the parameters and optimiser state it was given, writes no checkpoint, and
    moves the walkers only by walking; one row of metrics per epoch.  The walker is an arbitrary function. *)
Theorem C61_evaluation : forall (P M K St : Type) walker (local_energy : P -> list R -> xr) statistics has_nan ld rec_amps amplitude_fn nch,
  (rec_amps = true -> amplitude_fn <> None) ->
  forall nepochs p (o : St) (datas : list (padata M)) (keys : list K),
  exists rows, vmc_loop walker (eval_update_param_fn local_energy statistics) has_nan (eval_run_cfg (Some ld) rec_amps amplitude_fn nch) 0 nepochs p o datas keys
    = Finished p o (fst (walk_only walker nepochs p datas keys)) (snd (walk_only walker nepochs p datas keys)) false [] rows /\ length rows = nepochs.
Proof.
  intros P M K St walker local_energy statistics has_nan ld rec_amps amplitude_fn nch Ha nepochs p o datas keys.
  unfold vmc_loop. rewrite Nat.sub_0_r.
  assert (G : forall n e (s : vstate P (list (padata M)) St (list K)), v_nans s = false -> cs_best (v_cs s) = None -> cs_ckpts (v_cs s) = [] ->
    exists s', loop walker (eval_update_param_fn local_energy statistics) has_nan (eval_run_cfg (Some ld) rec_amps amplitude_fn nch) n e s = Continue s' /\
      v_params s' = v_params s /\ v_opt s' = v_opt s /\ (v_data s', v_key s') = walk_only walker n (v_params s) (v_data s) (v_key s) /\
      v_nans s' = false /\ cs_best (v_cs s') = None /\ cs_ckpts (v_cs s') = [] /\ length (cs_metrics (v_cs s')) = (length (cs_metrics (v_cs s)) + n)%nat).
  { induction n as [|n IH]; intros e s Hn Hb Hc.
    - exists s. cbn. repeat split; auto.
    - cbn [loop walk_only]. unfold epoch_step.
      destruct (walker (v_params s) (v_data s) (v_key s)) as [[a d1] k1].
      unfold eval_update_param_fn at 1. destruct (statistics _) as [en va].
      unfold save_metrics_and_handle_checkpoints. cbn [eval_run_cfg logdir].
      assert (E : exists m, add_amplitude (eval_run_cfg (Some ld) rec_amps amplitude_fn nch)
        (dset [("energy"%string, en); ("variance"%string, va)] "accept_ratio" a) d1 = Some m).
      { unfold add_amplitude. cbn [eval_run_cfg record_amplitudes get_amplitude_fn]. destruct rec_amps; [|eauto].
        destruct amplitude_fn as [f|]; [|exfalso; apply Ha; reflexivity]. destruct (f d1). eauto. }
      destruct E as [m ->]. cbn [save_metrics_and_regular_checkpoint track_and_save_best_checkpoint eval_run_cfg checkpoint_every check_for_nans best_checkpoint_every].
      match goal with |- context [loop _ _ _ _ n (S e) ?s1] => destruct (IH (S e) s1) as (s' & E & R1 & R2 & R3 & R4 & R5 & R6 & R7) end.
      { reflexivity. } { exact Hb. } { exact Hc. }
      exists s'. rewrite E. cbn [v_params v_opt v_data v_key v_cs] in *. repeat split; auto.
      rewrite R7. cbn. rewrite app_length. cbn. lia. }
  match goal with |- context [loop _ _ _ _ nepochs 0 ?s] => destruct (G nepochs 0%nat s eq_refl eq_refl eq_refl) as (s' & E & R1 & R2 & R3 & R4 & R5 & R6 & R7) end.
  rewrite E. cbn [v_params v_opt v_data v_key v_cs] in *. unfold finish_checkpointing. cbn [eval_run_cfg logdir]. rewrite R5, R6, R4, R1, R2, <- R3.
  eexists. split; [reflexivity|]. cbn in R7. exact R7.
Qed.
Print Assumptions C61_evaluation.

(** Two epochs on two devices; the "optimiser" adds 1 to the single parameter. *)
Definition ex_prng : prng nat := {| split2 := fun k => (2 * k, 2 * k + 1)%nat; uniform := fun _ n => repeat (/ 2) n; normal := fun _ shape => map (repeat 1) shape |}.
Definition ex_psi (p : R) (x : list R) : xr := Fin (p * lsum x).
Definition ex_energy (p : R) (ks : list nat) (xs : list (list (list R))) : energy_data * unit :=
  ({| ed_energy := Fin 0; ed_variance := Fin 1; ed_energy_noclip := None; ed_variance_noclip := None; ed_centered := [] |}, tt).
Example C61_example :
  let datas := [Build_padata [[1; 2]] [Fin 3] tt; Build_padata [[4; 5]] [Fin 9] tt] in
  let none := eval_run_cfg None false None 2 in
  match vmc_loop (walker_fn_pmapped 1 (pa_step ex_prng (fun p => map (ex_psi p)) (fun _ => 1) None true) 2)
     (grad_update_param_fn ex_prng (fun p => map (ex_psi p)) ex_energy (fun _ p s _ _ => (p + 1, s)) (fun _ => Fin 0) false) (fun _ => false) none 0 2 1 tt datas [5; 6]%nat with
  | Finished p' _ datas' _ _ _ _ => p' = 1 + 1 + 1 /\ Forall (consistent ex_psi p') datas'
  | Raised _ _ _ => False
  end.
Proof.
  intros datas none.
  assert (G : good_prng ex_prng).
  { constructor; simpl; intros.
    - apply repeat_length.
    - apply repeat_spec in H. subst. lra.
    - rewrite map_map. rewrite (map_ext _ (fun x => x)); [apply map_id|]. intros; apply repeat_length. }
  assert (C : Forall (consistent ex_psi 1) datas).
  { constructor; [|constructor; [|constructor]]; unfold consistent, ex_psi; cbn; repeat f_equal; ring. }
  pose proof (C61_training R unit nat unit unit ex_prng ex_psi (fun p => map (ex_psi p)) (fun _ => 1) None true 1 2 ex_energy (fun _ p s _ _ => (p + 1, s))
    (fun p s _ _ => (p, s, fst (ex_energy p [] []))) (fun _ => Fin 0) false (fun _ => false) none _ G ltac:(reflexivity) ltac:(discriminate) (or_introl eq_refl) 0%nat 2%nat 1 tt datas [5; 6]%nat eq_refl C) as H.
  set (w := walker_fn_pmapped _ _ _) in *. unfold vmc_loop in *. cbn [Nat.sub loop] in *. unfold epoch_step in *. cbn [v_params v_data v_opt v_key v_cs v_nans] in *.
  destruct (w 1 datas [5; 6]%nat) as [[a1 d1] k1]. unfold grad_update_param_fn, ex_energy in *. cbn -[w] in *.
  destruct (w (1 + 1) _ _) as [[a2 d2] k2]. cbn -[w] in *. split; [reflexivity | apply H].
Qed.

(** ** C21 again: the keys of the updates and of a whole training run are those counted in the key model. *)
(** An update hands exactly the counted keys to the energy function (or to KFAC), whatever that does with them, and returns the keys the key model returns. *)
Theorem C21_update_reads_only_counted_keys : forall (P M St Gr : Type) (g : prng key) model_apply energy1 energy2
    (apply : Gr -> P -> St -> list (padata M) -> list (list xr) -> P * St) kfac1 kfac2 l1 rec_l1,
  (forall k, split2 g k = key_split2 k) ->
  forall p datas s keys, let counted := concat (map (fun k => fst (update_keys GradStandard k)) keys) in let left := map (fun k => snd (update_keys GradStandard k)) keys in
  ((forall xs, energy1 p counted xs = energy2 p counted xs) ->
   grad_update_param_fn g model_apply energy1 apply l1 rec_l1 p datas s keys = grad_update_param_fn g model_apply energy2 apply l1 rec_l1 p datas s keys /\
   snd (grad_update_param_fn g model_apply energy1 apply l1 rec_l1 p datas s keys) = left) /\
  ((forall xs, kfac1 p s counted xs = kfac2 p s counted xs) ->
   kfac_update_param_fn (M := M) g model_apply l1 kfac1 rec_l1 p datas s keys = kfac_update_param_fn g model_apply l1 kfac2 rec_l1 p datas s keys /\
   snd (kfac_update_param_fn (M := M) g model_apply l1 kfac1 rec_l1 p datas s keys) = left).
Proof.
  intros P M St Gr g model_apply en1 en2 apply kf1 kf2 l1 rec_l1 Hs p datas s keys counted left.
  assert (E1 : map snd (map (split2 g) keys) = counted).
  { unfold counted. clear - Hs. induction keys as [|k ks IH]; [reflexivity|]. cbn [map concat]. rewrite Hs, IH. reflexivity. }
  assert (E2 : map fst (map (split2 g) keys) = left).
  { unfold left. rewrite map_map. apply map_ext. intros k. rewrite Hs. reflexivity. }
  split; intros H.
  - unfold grad_update_param_fn. rewrite E1, E2, <- H. split; [reflexivity|]. destruct (en1 p counted _) as [ed gr]. destruct (apply gr p s datas _). reflexivity.
  - unfold kfac_update_param_fn. rewrite E1, E2, <- H. split; [reflexivity|]. destruct (kf1 p s counted _) as [[p2 s2] ed]. reflexivity.
Qed.
Print Assumptions C21_update_reads_only_counted_keys.

(** A run that is not stopped by NaNs ends with the keys the key model ends with, whatever optimiser, energies and checkpoint options. *)
Theorem C21_training_as_counted : forall (P M St Gr : Type) (g : prng key) model_apply (get_std : padata M -> R) upd logabs
    nsteps ndev energy_fn (apply : Gr -> P -> St -> list (padata M) -> list (list xr) -> P * St) kfac l1 rec_l1 has_nan (c : cfg (list (padata M))) update,
  (forall k, split2 g k = key_split2 k) ->
  (forall f, upd = Some f -> forall ms masks, length (f ms masks) = length ms) ->
  (update = grad_update_param_fn g model_apply energy_fn apply l1 rec_l1 \/ update = kfac_update_param_fn g model_apply l1 kfac rec_l1) ->
  forall start nepochs p o datas keys p' o' datas' keys' ckpts rows, length datas = length keys ->
  vmc_loop (walker_fn_pmapped nsteps (pa_step g model_apply get_std upd logabs) ndev) update has_nan c start nepochs p o datas keys
    = Finished p' o' datas' keys' false ckpts rows ->
  keys' = snd (on_devices (epochs_keys (nepochs - start) nsteps (update_keys GradStandard)) keys).
Proof.
  intros P M St Gr g model_apply get_std upd logabs nsteps ndev energy_fn apply kfac l1 rec_l1 has_nan c update Hs Hu Hup start nepochs p o datas keys p' o' datas' keys' ckpts rows L H.
  pose (W := walker_fn_pmapped nsteps (pa_step g model_apply get_std upd logabs) ndev). fold W in H.
  assert (Ks : forall f h k, snd (kseq f h k) = snd (h (snd (f k)))) by (intros f h k; unfold kseq; destruct (f k) as [u k']; cbn; destruct (h k'); reflexivity).
  assert (HS : forall n acc d ks p, length d = length ks -> length (snd (fst (walk_scan (zipw xadd) (pa_step g model_apply get_std upd logabs) p n (acc, d, ks)))) = length ks /\
    snd (walk_scan (zipw xadd) (pa_step g model_apply get_std upd logabs) p n (acc, d, ks)) = map (fun k => snd (walk_keys n k)) ks).
  { induction n as [|n IH]; intros acc d ks q Ld; [cbn; rewrite map_id; split; [exact Ld|reflexivity]|]. cbn [walk_scan].
    destruct (step_lengths g model_apply get_std upd logabs Hu q d ks Ld) as [L1 L2].
    destruct (step_depends g g model_apply get_std upd logabs Hs Hs q d ks Ld ltac:(split; reflexivity)) as [_ Ek].
    destruct (pa_step g model_apply get_std upd logabs q d ks) as [[a d1] k1]. cbn [fst snd] in *. subst k1. rewrite map_length in *.
    destruct (IH (zipw xadd acc a) d1 (map (fun k => snd (step_keys k)) ks) q) as (I1 & I2); [rewrite map_length; lia|]. rewrite map_length in I1. split; [exact I1|].
    rewrite I2, map_map. apply map_ext. intros k. unfold walk_keys. cbn [kloop]. rewrite Ks. reflexivity. }
  assert (HW : forall p d ks, length d = length ks -> length (snd (fst (W p d ks))) = length ks /\ snd (W p d ks) = map (fun k => snd (walk_keys nsteps k)) ks).
  { intros q d ks Ld. unfold W, walker_fn_pmapped, walk_data_gen. destruct (HS nsteps (repeat (Fin 0) ndev) d ks q Ld) as (I1 & I2).
    destruct (walk_scan _ _ _ _ _) as [[a d1] k1]. cbn [fst snd] in *. split; assumption. }
  assert (HU : forall p d s ks, length (snd (fst (fst (fst (update p d s ks))))) = length d /\ snd (update p d s ks) = map (fun k => snd (update_keys GradStandard k)) ks).
  { intros q d s ks. assert (E2 : map fst (map (split2 g) ks) = map (fun k => snd (update_keys GradStandard k)) ks) by (rewrite map_map; apply map_ext; intros k; rewrite Hs; reflexivity).
    destruct Hup as [-> | ->].
    - unfold grad_update_param_fn. destruct (energy_fn q _ _) as [ed gr]. destruct (apply gr q s d _) as [p2 s2]. cbn [fst snd]. rewrite map_length. split; [reflexivity|exact E2].
    - unfold kfac_update_param_fn. destruct (kfac q s _ _) as [[p2 s2] ed]. cbn [fst snd]. rewrite map_length. split; [reflexivity|exact E2]. }
  assert (G : forall n e (s s' : vstate P (list (padata M)) St (list key)), length (v_data s) = length (v_key s) -> loop W update has_nan c n e s = Continue s' ->
    v_key s' = map (fun k => snd (epochs_keys n nsteps (update_keys GradStandard) k)) (v_key s)).
  { induction n as [|n IH]; intros e s s' Ld E; [cbn in E; injection E as <-; unfold epochs_keys; cbn; rewrite map_id; reflexivity|].
    cbn [loop] in E. destruct (epoch_step W update has_nan c e s) as [s1|s1|s1 x] eqn:Es; try discriminate.
    assert (B : length (v_data s1) = length (v_key s1) /\ v_key s1 = map (fun k => snd (kseq (walk_keys nsteps) (update_keys GradStandard) k)) (v_key s)).
    { unfold epoch_step in Es. destruct (HW (v_params s) (v_data s) (v_key s) Ld) as (W1 & W2). destruct (W (v_params s) (v_data s) (v_key s)) as [[a d1] k1]. cbn [fst snd] in W1, W2.
      destruct (HU (v_params s) d1 (v_opt s) k1) as (U1 & U2). destruct (update (v_params s) d1 (v_opt s) k1) as [[[[p2 d2] o2] m2] k2]. cbn [fst snd] in U1, U2.
      assert (F : length d2 = length k2 /\ k2 = map (fun k => snd (kseq (walk_keys nsteps) (update_keys GradStandard) k)) (v_key s)).
      { subst k1 k2. rewrite !map_map, map_length. split; [lia|]. apply map_ext. intros k. rewrite Ks. reflexivity. }
      destruct m2 as [m|]; [|injection Es as <-; exact F]. destruct (save_metrics_and_handle_checkpoints _ _ _ _ _ _ _) as [cs nn|cs x]; [|discriminate].
      destruct nn; [discriminate|]. injection Es as <-. exact F. }
    destruct B as (B1 & B2). rewrite (IH _ _ _ B1 E), B2, map_map. apply map_ext. intros k. unfold epochs_keys. cbn [kloop]. rewrite (Ks (kseq _ _)). reflexivity. }
  unfold vmc_loop in H.
  match type of H with match loop _ _ _ _ ?n ?e ?s with _ => _ end = _ => pose proof (G n e s) as G0; destruct (loop W update has_nan c n e s) as [s1|s1|s1 x] eqn:El end; try discriminate.
  - injection H as _ _ _ <- _ _ _. cbn [v_data v_key] in G0. rewrite (G0 s1 L eq_refl). reflexivity.
  - exfalso. assert (B : v_nans s1 = true); [|injection H; intros; congruence]. clear - El. revert El.
    match goal with |- loop _ _ _ _ ?nn ?ee ?ss = _ -> _ => generalize nn; intros n; generalize ee ss end. induction n as [|n IH]; intros e s E; cbn [loop] in E; [discriminate E|].
    destruct (epoch_step W update has_nan c e s) as [s2|s2|s2 x] eqn:Es; try discriminate; [exact (IH _ _ E)|]. injection E as ->.
    unfold epoch_step in Es. destruct (W _ _ _) as [[a d1] k1]. destruct (update _ _ _ _) as [[[[p2 d2] o2] m2] k2]. destruct m2; [|discriminate].
    destruct (save_metrics_and_handle_checkpoints _ _ _ _ _ _ _) as [cs nn|cs x]; [|discriminate]. destruct nn; [|discriminate]. injection Es as <-. reflexivity.
Qed.
Print Assumptions C21_training_as_counted.
