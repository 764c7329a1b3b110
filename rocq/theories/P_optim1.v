(** * Positive definite systems, elimination, SPRING *)
From Coq Require Import Reals List Arith Lia Lra.
From Verif Require Import XReal Rsum M_optim S_optim.
Local Open Scope R_scope.

Definition symm (n : nat) (A : rmat) : Prop := forall i j, (i < n)%nat -> (j < n)%nat -> A i j = A j i.
Definition posdef (n : nat) (A : rmat) : Prop :=
  forall x, (exists i, (i < n)%nat /\ x i <> 0) -> 0 < inner n x (matvec n A x).

Lemma schur_posdef n A : symm (S n) A -> posdef (S n) A ->
  0 < A O O /\ symm n (fun i j => A (S i) (S j) - A (S i) O * A O (S j) / A O O) /\
  posdef n (fun i j => A (S i) (S j) - A (S i) O * A O (S j) / A O O).
Proof.
  intros Sy Pd.
  assert (Ha : 0 < A O O).
  { specialize (Pd (fun i => match i with O => 1 | _ => 0 end) (ex_intro _ O (conj (Nat.lt_0_succ n) R1_neq_R0))).
    unfold inner, matvec in Pd. rewrite Rsum_S_l in Pd. rewrite Rsum_S_l in Pd.
    rewrite (Rsum_eq_0 n) in Pd by (intros; ring). rewrite (Rsum_eq_0 n) in Pd by (intros; ring). lra. }
  split; [exact Ha|]. split.
  - intros i j Hi Hj. rewrite (Sy (S i) (S j)), (Sy (S i) O), (Sy O (S j)) by lia. unfold Rdiv. ring.
  - intros y (i & Hi & Hy).
    pose (s := Rsum n (fun j => A O (S j) * y j)).
    specialize (Pd (fun i => match i with O => - s / A O O | S i' => y i' end)).
    assert (E : inner (S n) (fun i => match i with O => - s / A O O | S i' => y i' end)
                 (matvec (S n) A (fun i => match i with O => - s / A O O | S i' => y i' end))
              = inner n y (matvec n (fun i j => A (S i) (S j) - A (S i) O * A O (S j) / A O O) y)).
    { unfold inner, matvec. rewrite Rsum_S_l, Rsum_S_l. fold s.
      rewrite (Rsum_ext n (fun i0 => y i0 * Rsum (S n) _)
                (fun i0 => - s / A O O * (A O (S i0) * y i0) + y i0 * Rsum n (fun j => A (S i0) (S j) * y j))).
      2:{ intros k Hk. rewrite Rsum_S_l, (Sy (S k) O) by lia. ring. }
      rewrite Rsum_plus, Rsum_scal. fold s.
      rewrite (Rsum_ext n (fun i0 => y i0 * Rsum n (fun j => (A (S i0) (S j) - A (S i0) O * A O (S j) / A O O) * y j))
                (fun i0 => y i0 * Rsum n (fun j => A (S i0) (S j) * y j) - s / A O O * (A O (S i0) * y i0))).
      2:{ intros k Hk. rewrite (Rsum_ext n (fun j => (A (S k) (S j) - A (S k) O * A O (S j) / A O O) * y j)
                (fun j => A (S k) (S j) * y j - A (S k) O / A O O * (A O (S j) * y j))) by (intros; field; lra).
          rewrite Rsum_minus, Rsum_scal. fold s. rewrite (Sy (S k) O) by lia. field. lra. }
      rewrite Rsum_minus, Rsum_scal. fold s. field. lra. }
    rewrite <- E. apply Pd. exists (S i). split; [lia | exact Hy].
Qed.

Lemma pos_solve_ok n : forall A b, symm n A -> posdef n A -> agree n (matvec n A (pos_solve n A b)) b.
Proof.
  induction n as [|n IH]; intros A b Sy Pd k Hk; [lia|].
  destruct (schur_posdef n A Sy Pd) as (Ha & Sy' & Pd').
  specialize (IH _ (fun i => b (S i) - A (S i) O * b O / A O O) Sy' Pd').
  cbn [pos_solve]. set (y := pos_solve n _ _) in *. unfold matvec in *. rewrite Rsum_S_l.
  destruct k as [|k].
  - field. lra.
  - specialize (IH k ltac:(lia)). cbv beta in IH.
    rewrite (Rsum_ext n (fun j => (A (S k) (S j) - A (S k) O * A O (S j) / A O O) * y j)
              (fun j => A (S k) (S j) * y j - A (S k) O / A O O * (A O (S j) * y j))) in IH by (intros; field; lra).
    rewrite Rsum_minus, Rsum_scal in IH.
    replace (Rsum n (fun i => A (S k) (S i) * y i)) with
      (A (S k) O / A O O * Rsum n (fun j => A O (S j) * y j) + (b (S k) - A (S k) O * b O / A O O)) by lra.
    field. lra.
Qed.

(** ** Inner products *)
Lemma inner_sym n u v : inner n u v = inner n v u.
Proof. unfold inner. apply Rsum_ext; intros; ring. Qed.
Lemma inner_ext n u u' v v' : agree n u u' -> agree n v v' -> inner n u v = inner n u' v'.
Proof. intros H H'. unfold inner. apply Rsum_ext; intros. rewrite H, H' by assumption. reflexivity. Qed.
Lemma inner_add_r n u v w : inner n u (fun k => v k + w k) = inner n u v + inner n u w.
Proof. unfold inner. rewrite <- Rsum_plus. apply Rsum_ext; intros; ring. Qed.
Lemma inner_sub_r n u v w : inner n u (fun k => v k - w k) = inner n u v - inner n u w.
Proof. unfold inner. rewrite <- Rsum_minus. apply Rsum_ext; intros; ring. Qed.
Lemma inner_scal_r n u c v : inner n u (fun k => c * v k) = c * inner n u v.
Proof. unfold inner. rewrite <- Rsum_scal. apply Rsum_ext; intros; ring. Qed.
Lemma inner_add_l n u v w : inner n (fun k => v k + w k) u = inner n v u + inner n w u.
Proof. rewrite !(inner_sym n _ u). apply inner_add_r. Qed.
Lemma inner_sub_l n u v w : inner n (fun k => v k - w k) u = inner n v u - inner n w u.
Proof. rewrite !(inner_sym n _ u). apply inner_sub_r. Qed.
Lemma inner_scal_l n u c v : inner n (fun k => c * v k) u = c * inner n v u.
Proof. rewrite !(inner_sym n _ u). apply inner_scal_r. Qed.
Lemma inner_nonneg n u : 0 <= inner n u u.
Proof. apply Rsum_nonneg. intros. nra. Qed.
Lemma inner_pos n u : (exists i, (i < n)%nat /\ u i <> 0) -> 0 < inner n u u.
Proof.
  intros (i & Hi & Hu). destruct (Rle_lt_or_eq_dec _ _ (inner_nonneg n u)) as [H|H]; [exact H|].
  exfalso. apply Hu. assert (u i * u i = 0); [|nra].
  apply (Rsum_zero_terms n (fun k => u k * u k)); [intros; nra | unfold inner in H; lra | exact Hi].
Qed.
Lemma inner_zero n u : inner n u u = 0 -> agree n u (fun _ => 0).
Proof.
  intros H k Hk. destruct (Req_dec (u k) 0) as [E|E]; [exact E|].
  assert (0 < inner n u u) by (apply inner_pos; eauto). lra.
Qed.
Lemma sq_norm_inner n u : sq_norm n u = inner n u u.
Proof. unfold sq_norm, inner. apply Rsum_ext; intros; ring. Qed.
Lemma inner_vecmat n m A x y : inner m x (vecmat n A y) = inner n (matvec m A x) y.
Proof.
  unfold inner, vecmat, matvec.
  rewrite (Rsum_ext m _ (fun k => Rsum n (fun i => x k * (A i k * y i)))) by (intros; rewrite Rsum_scal; reflexivity).
  rewrite Rsum_swap. apply Rsum_ext; intros i Hi. rewrite <- Rsum_scal_r. apply Rsum_ext; intros; ring.
Qed.
Lemma matvec_ext m A x x' : agree m x x' -> forall i, matvec m A x i = matvec m A x' i.
Proof. intros H i. unfold matvec. apply Rsum_ext; intros; rewrite H by assumption; reflexivity. Qed.
Lemma vecmat_ext n A x x' : agree n x x' -> forall i, vecmat n A x i = vecmat n A x' i.
Proof. intros H i. unfold vecmat. apply Rsum_ext; intros; rewrite H by assumption; reflexivity. Qed.
Lemma matvec_add m A x y i : matvec m A (fun k => x k + y k) i = matvec m A x i + matvec m A y i.
Proof. unfold matvec. rewrite <- Rsum_plus. apply Rsum_ext; intros; ring. Qed.
Lemma matvec_sub m A x y i : matvec m A (fun k => x k - y k) i = matvec m A x i - matvec m A y i.
Proof. unfold matvec. rewrite <- Rsum_minus. apply Rsum_ext; intros; ring. Qed.
Lemma matvec_scal m A c x i : matvec m A (fun k => c * x k) i = c * matvec m A x i.
Proof. unfold matvec. rewrite <- Rsum_scal. apply Rsum_ext; intros; ring. Qed.
Lemma vecmat_add m A x y i : vecmat m A (fun k => x k + y k) i = vecmat m A x i + vecmat m A y i.
Proof. unfold vecmat. rewrite <- Rsum_plus. apply Rsum_ext; intros; ring. Qed.
Lemma vecmat_sub m A x y i : vecmat m A (fun k => x k - y k) i = vecmat m A x i - vecmat m A y i.
Proof. unfold vecmat. rewrite <- Rsum_minus. apply Rsum_ext; intros; ring. Qed.
Lemma vecmat_scal m A c x i : vecmat m A (fun k => c * x k) i = c * vecmat m A x i.
Proof. unfold vecmat. rewrite <- Rsum_scal. apply Rsum_ext; intros; ring. Qed.

(** ** The SPRING matrix *)
Lemma eye_sum n i y : (i < n)%nat -> Rsum n (fun j => eye_r i j * y j) = y i.
Proof.
  intros Hi. rewrite (Rsum_single n i); [unfold eye_r; rewrite Nat.eqb_refl; ring | exact Hi |].
  intros j _ Hj. unfold eye_r. destruct (Nat.eqb_spec i j); [lia | ring].
Qed.

Lemma treg_matvec n np damping O y i : (i < n)%nat ->
  matvec n (spring_treg n np damping O) y i = matvec np O (vecmat n O y) i + Rsum n y / INR n + damping * y i.
Proof.
  intros Hi. unfold matvec at 1, spring_treg.
  rewrite (Rsum_ext n _ (fun j => (Rsum np (fun k => O i k * O j k) * y j + / INR n * y j) + damping * (eye_r i j * y j)))
    by (intros; unfold Rdiv; ring).
  rewrite !Rsum_plus, !Rsum_scal, eye_sum by assumption. f_equal. f_equal.
  - unfold matvec, vecmat.
    rewrite (Rsum_ext n _ (fun j => Rsum np (fun k => O i k * (O j k * y j))))
      by (intros; rewrite <- Rsum_scal_r; apply Rsum_ext; intros; ring).
    rewrite Rsum_swap. apply Rsum_ext; intros. rewrite Rsum_scal. reflexivity.
  - unfold Rdiv; ring.
Qed.

Lemma treg_symm n np damping O : symm n (spring_treg n np damping O).
Proof.
  intros i j _ _. unfold spring_treg. f_equal; [f_equal|].
  - apply Rsum_ext; intros; ring.
  - unfold eye_r. rewrite Nat.eqb_sym. reflexivity.
Qed.

Lemma treg_posdef n np damping O : (0 < n)%nat -> 0 < damping -> posdef n (spring_treg n np damping O).
Proof.
  intros Hn Hd y Hy.
  rewrite (inner_ext n y y _ (fun i => (matvec np O (vecmat n O y) i + Rsum n y / INR n) + damping * y i))
    by first [intros k Hk; apply treg_matvec; exact Hk | intros k Hk; reflexivity].
  rewrite inner_add_r, inner_add_r, inner_scal_r, <- inner_sym, <- inner_vecmat.
  assert (E : inner n y (fun _ => Rsum n y / INR n) = Rsum n y * Rsum n y / INR n).
  { unfold inner. rewrite Rsum_scal_r. unfold Rdiv. ring. }
  rewrite E. pose proof (inner_nonneg np (vecmat n O y)). pose proof (inner_pos n y Hy).
  assert (0 <= Rsum n y * Rsum n y / INR n).
  { apply Rmult_le_pos; [nra|]. left. apply Rinv_0_lt_compat, lt_0_INR. lia. }
  nra.
Qed.

Lemma ohat_columns n G k : (0 < n)%nat -> Rsum n (fun i => spring_ohat n G i k) = 0.
Proof.
  intros Hn. unfold spring_ohat. rewrite Rsum_minus, Rsum_const. field. apply not_0_INR. lia.
Qed.

Definition spring_rhs (n : nat) (e : rvec) : rvec := fun i => e i / sqrt (INR n).

(** The normal equations in parameter space. *)
Definition spring_dtheta n np damping mu G e prev : rvec := spring_update n np damping mu 0 G e prev.

Lemma spring_update_momentum n np damping mu m G e prev k :
  spring_update n np damping mu m G e prev k = (1 - m) * spring_dtheta n np damping mu G e prev k + m * prev k.
Proof. unfold spring_dtheta, spring_update. ring. Qed.

Lemma spring_normal n np damping mu G e prev : (0 < n)%nat -> 0 < damping ->
  let O := spring_ohat n G in let d := spring_dtheta n np damping mu G e prev in
  forall k, vecmat n O (matvec np O d) k + damping * d k = vecmat n O (spring_rhs n e) k + damping * (mu * prev k).
Proof.
  intros Hn Hd O d k.
  pose (et := fun i => spring_rhs n e i - matvec np O (fun k => mu * prev k) i).
  pose (z := pos_solve n (spring_treg n np damping O) et).
  assert (Hz : forall i, (i < n)%nat -> matvec np O (vecmat n O z) i + Rsum n z / INR n + damping * z i = et i).
  { intros i Hi. rewrite <- treg_matvec by assumption.
    apply (pos_solve_ok n _ et (treg_symm n np damping O) (treg_posdef n np damping O Hn Hd)). exact Hi. }
  assert (Ed : forall j, d j = vecmat n O z j + mu * prev j).
  { intros j. unfold d, spring_dtheta, spring_update. fold O. change (fun i => e i / sqrt (INR n) - _) with et. fold z. ring. }
  rewrite Ed.
  rewrite (vecmat_ext n O (matvec np O d) (fun i => matvec np O (vecmat n O z) i + matvec np O (fun k => mu * prev k) i)).
  2:{ intros i _. rewrite <- matvec_add. apply matvec_ext. intros j _. apply Ed. }
  rewrite vecmat_add.
  assert (E1 : vecmat n O (matvec np O (vecmat n O z)) k = vecmat n O et k - damping * vecmat n O z k).
  { rewrite (vecmat_ext n O (matvec np O (vecmat n O z)) (fun i => (et i - damping * z i) - Rsum n z / INR n))
      by (intros i Hi; specialize (Hz i Hi); lra).
    rewrite vecmat_sub, vecmat_sub, vecmat_scal.
    assert (vecmat n O (fun _ => Rsum n z / INR n) k = 0); [|lra].
    unfold vecmat. rewrite Rsum_scal_r. unfold O. rewrite ohat_columns by assumption. ring. }
  rewrite E1. unfold et. rewrite vecmat_sub. ring.
Qed.

(** The objective in terms of these matrices. *)
Lemma sqrt_INR_sq n : (0 < n)%nat -> sqrt (INR n) * sqrt (INR n) = INR n.
Proof. intros. apply sqrt_sqrt, pos_INR. Qed.
Lemma sqrt_INR_pos n : (0 < n)%nat -> 0 < sqrt (INR n).
Proof. intros. apply sqrt_lt_R0, lt_0_INR. lia. Qed.

Lemma ohat_average n G i k : (0 < n)%nat -> spring_ohat n G i k = (G i k - average n (fun j => G j k)) / sqrt (INR n).
Proof.
  intros Hn. unfold spring_ohat, spring_scaled, average.
  rewrite (Rsum_ext n (fun j => G j k / sqrt (INR n)) (fun j => / sqrt (INR n) * G j k)) by (intros; unfold Rdiv; ring).
  rewrite Rsum_scal. field. split; [apply not_0_INR; lia | apply Rgt_not_eq, sqrt_INR_pos; assumption].
Qed.

Lemma objective_form n np damping mu G e prev d : (0 < n)%nat ->
  spring_objective n np damping mu G e prev d
  = inner n (fun i => matvec np (spring_ohat n G) d i - spring_rhs n e i) (fun i => matvec np (spring_ohat n G) d i - spring_rhs n e i)
    + damping * inner np (fun k => d k - mu * prev k) (fun k => d k - mu * prev k).
Proof.
  intros Hn. unfold spring_objective, average at 1, inner. f_equal.
  - unfold Rdiv. rewrite <- Rsum_scal_r. apply Rsum_ext; intros i _.
    assert (E : matvec np (spring_ohat n G) d i = / sqrt (INR n) * Rsum np (fun k => (G i k - average n (fun j => G j k)) * d k)).
    { unfold matvec. rewrite <- Rsum_scal. apply Rsum_ext; intros. rewrite ohat_average by assumption. unfold Rdiv. ring. }
    rewrite E. unfold spring_rhs. pose proof (sqrt_INR_pos n Hn) as Hq.
    assert (Ei : / INR n = / sqrt (INR n) * / sqrt (INR n)).
    { rewrite <- Rinv_mult, sqrt_INR_sq by assumption. reflexivity. }
    rewrite Ei. unfold Rdiv. ring.
  - f_equal. apply Rsum_ext; intros; ring.
Qed.

Lemma objective_expand n np damping mu G e prev d : (0 < n)%nat -> 0 < damping ->
  let O := spring_ohat n G in let s := spring_dtheta n np damping mu G e prev in
  spring_objective n np damping mu G e prev d
  = spring_objective n np damping mu G e prev s
    + inner n (matvec np O (fun k => d k - s k)) (matvec np O (fun k => d k - s k))
    + damping * inner np (fun k => d k - s k) (fun k => d k - s k).
Proof.
  intros Hn Hd O s. rewrite !objective_form by assumption. fold O.
  pose (w := fun k => d k - s k). fold w.
  pose (r := fun i => matvec np O s i - spring_rhs n e i).
  pose (q := fun k => s k - mu * prev k).
  rewrite (inner_ext n (fun i => matvec np O d i - spring_rhs n e i) (fun i => r i + matvec np O w i) _ (fun i => r i + matvec np O w i))
    by (intros i _; unfold r, w; rewrite matvec_sub; ring).
  rewrite (inner_ext np (fun k => d k - mu * prev k) (fun k => q k + w k) _ (fun k => q k + w k)) by (intros i _; unfold q, w; ring).
  fold r. fold q.
  rewrite !inner_add_r, !inner_add_l. rewrite (inner_sym n (matvec np O w) r), (inner_sym np w q).
  assert (C : inner n r (matvec np O w) + damping * inner np q w = 0).
  { rewrite (inner_sym n r), <- inner_vecmat, (inner_sym np q w), <- inner_scal_r, <- inner_add_r.
    rewrite (inner_ext np w w _ (fun _ => 0)); [unfold inner; apply Rsum_eq_0; intros; ring | intros k _; reflexivity |].
    intros k _. unfold r, q. rewrite vecmat_sub.
    pose proof (spring_normal n np damping mu G e prev Hn Hd k) as N. cbv zeta in N. fold O in N. fold s in N. lra. }
  lra.
Qed.

Lemma spring_minimises n np damping mu G e prev d : (0 < n)%nat -> 0 < damping ->
  let s := spring_dtheta n np damping mu G e prev in
  spring_objective n np damping mu G e prev s <= spring_objective n np damping mu G e prev d /\
  (spring_objective n np damping mu G e prev d <= spring_objective n np damping mu G e prev s -> agree np d s).
Proof.
  intros Hn Hd s. rewrite (objective_expand n np damping mu G e prev d Hn Hd). fold s.
  pose proof (inner_nonneg n (matvec np (spring_ohat n G) (fun k => d k - s k))).
  pose proof (inner_nonneg np (fun k => d k - s k)). split; [nra|].
  intros L. assert (Z : inner np (fun k => d k - s k) (fun k => d k - s k) = 0) by nra.
  intros k Hk. pose proof (inner_zero np _ Z k Hk) as E. cbv beta in E. lra.
Qed.

(** A common shift of the energies changes nothing. *)
Lemma rhs_shift n G e c k : (0 < n)%nat ->
  vecmat n (spring_ohat n G) (spring_rhs n (fun i => e i + c)) k = vecmat n (spring_ohat n G) (spring_rhs n e) k.
Proof.
  intros Hn. rewrite (vecmat_ext n _ (spring_rhs n (fun i => e i + c)) (fun i => spring_rhs n e i + c / sqrt (INR n)))
    by (intros i _; unfold spring_rhs, Rdiv; ring).
  rewrite vecmat_add. assert (vecmat n (spring_ohat n G) (fun _ => c / sqrt (INR n)) k = 0); [|lra].
  unfold vecmat. rewrite Rsum_scal_r, ohat_columns by assumption. ring.
Qed.

Lemma normal_unique n np damping O u v : 0 < damping ->
  (forall k, vecmat n O (matvec np O u) k + damping * u k = vecmat n O (matvec np O v) k + damping * v k) -> agree np u v.
Proof.
  intros Hd H. pose (w := fun k => u k - v k).
  assert (Z : inner np w w = 0).
  { assert (E : inner n (matvec np O w) (matvec np O w) + damping * inner np w w = 0).
    { rewrite <- inner_vecmat, <- inner_scal_r, <- inner_add_r.
      rewrite (inner_ext np w w _ (fun _ => 0)); [unfold inner; apply Rsum_eq_0; intros; ring | intros k _; reflexivity |].
      intros k _. specialize (H k). unfold w.
      rewrite (vecmat_ext n O _ (fun i => matvec np O u i - matvec np O v i)) by (intros i _; apply matvec_sub).
      rewrite vecmat_sub. lra. }
    pose proof (inner_nonneg n (matvec np O w)). pose proof (inner_nonneg np w). nra. }
  intros k Hk. pose proof (inner_zero np w Z k Hk) as E. unfold w in E. lra.
Qed.

Lemma spring_shift n np damping mu G e prev c : (0 < n)%nat -> 0 < damping ->
  agree np (spring_dtheta n np damping mu G (fun i => e i + c) prev) (spring_dtheta n np damping mu G e prev).
Proof.
  intros Hn Hd. apply (normal_unique n np damping (spring_ohat n G)); [exact Hd|]. intros k.
  pose proof (spring_normal n np damping mu G e prev Hn Hd k) as A.
  pose proof (spring_normal n np damping mu G (fun i => e i + c) prev Hn Hd k) as B.
  cbv zeta in A, B. rewrite A, B, rhs_shift by assumption. reflexivity.
Qed.
