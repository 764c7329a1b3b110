(** * Derivatives along coordinate lines, the laplacian loop, norms *)
From Coq Require Import Reals List Bool Arith Lra Lia FunctionalExtensionality.
From Coquelicot Require Import Coquelicot.
From Verif Require Import XReal Rsum M_stats M_physics S_physics P_unbiased.
Import ListNotations.
Local Open Scope R_scope.

(** ** Flattening *)
Lemma divmod_flat d i c : (c < d)%nat -> ((i * d + c) / d = i /\ (i * d + c) mod d = c)%nat.
Proof.
  intros H. split.
  - rewrite Nat.add_comm, Nat.div_add by lia. rewrite Nat.div_small by assumption. reflexivity.
  - rewrite Nat.add_comm, Nat.mod_add by lia. apply Nat.mod_small. assumption.
Qed.
Lemma flat_index d i c : (c < d)%nat -> forall x, flat d x (i * d + c) = x i c.
Proof. intros H x. unfold flat. destruct (divmod_flat d i c H) as [-> ->]. reflexivity. Qed.

(** Sum over a flattened index. *)
Lemma Rsum_flat n d f : Rsum (n * d) f = Rsum n (fun i => Rsum d (fun c => f (i * d + c)%nat)).
Proof.
  induction n as [|n IH]; [reflexivity|]. cbn [Rsum]. replace (S n * d)%nat with (n * d + d)%nat by lia. rewrite Rsum_app, IH. reflexivity.
Qed.

Lemma Derive_shift (L : R -> R) t : Derive (fun s => L (t + s)) 0 = Derive L t.
Proof.
  unfold Derive. f_equal. apply Lim_ext. intros h. replace (t + (0 + h)) with (t + h) by ring. rewrite Rplus_0_r. reflexivity.
Qed.

Lemma move_move x i c s t : move (move x i c s) i c t = move x i c (s + t).
Proof.
  unfold move. apply functional_extensionality. intros i'. apply functional_extensionality. intros c'.
  destruct (Nat.eqb i' i && Nat.eqb c' c); ring.
Qed.
Lemma move_0 x i c : move x i c 0 = x.
Proof.
  unfold move. apply functional_extensionality. intros i'. apply functional_extensionality. intros c'.
  destruct (Nat.eqb i' i && Nat.eqb c' c); ring.
Qed.

(** The function along one coordinate line. *)
Definition line (f : positions -> R) (x : positions) (i c : nat) (t : R) : R := f (move x i c t).

Lemma grad_x_move f x i c t : grad_x f (move x i c t) i c = Derive (line f x i c) t.
Proof.
  unfold grad_x. rewrite <- (Derive_shift (line f x i c)). apply Derive_ext. intros s. unfold line. rewrite move_move. reflexivity.
Qed.
Lemma grad_x_line f x i c : grad_x f x i c = Derive (line f x i c) 0.
Proof. rewrite <- (move_0 x i c) at 1. apply grad_x_move. Qed.

Lemma grad_x_reads n d f : reads n d f -> forall x y, (forall i c, (i < n)%nat -> (c < d)%nat -> x i c = y i c) ->
  forall i c, grad_x f x i c = grad_x f y i c.
Proof.
  intros H x y E i c. unfold grad_x. apply Derive_ext. intros t. apply H. intros i' c' Hi Hc. unfold move. rewrite (E i' c' Hi Hc). reflexivity.
Qed.

Lemma dot_identity n a k : (k < n)%nat -> dot n a (identity_row k) = a k.
Proof.
  intros H. unfold dot, identity_row. rewrite (Rsum_single n k); [rewrite Nat.eqb_refl; ring|assumption|].
  intros i _ Hne. destruct (Nat.eqb_spec i k); [contradiction|ring].
Qed.

(** One term of the laplacian loop. *)
Lemma scan_term np d f x i c : reads np d f -> (i < np)%nat -> (c < d)%nat ->
  let g := fun v => flat d (grad_x f (unflat d v)) in
  let v := identity_row (i * d + c) in
  dot (np * d) (fst (jvp g (flat d x) v)) v ^ 2 + dot (np * d) (snd (jvp g (flat d x) v)) v =
  Derive (line f x i c) 0 ^ 2 + Derive (Derive (line f x i c)) 0.
Proof.
  intros HR Hi Hc g v.
  assert (Hk : (i * d + c < np * d)%nat) by nia.
  unfold v. rewrite !dot_identity by assumption. unfold jvp. cbn [fst snd].
  assert (G : forall t, g (along (flat d x) (identity_row (i * d + c)) t) (i * d + c)%nat = Derive (line f x i c) t).
  { intros t. unfold g. rewrite flat_index by assumption. rewrite <- grad_x_move. apply (grad_x_reads np d); [assumption|].
    intros i' c' Hi' Hc'. unfold unflat, along. rewrite flat_index by assumption. unfold identity_row, move.
    destruct (Nat.eqb_spec (i' * d + c') (i * d + c)) as [E|E].
    - assert (i' = i /\ c' = c) as [-> ->].
      { destruct (divmod_flat d i c Hc) as [A1 A2]. destruct (divmod_flat d i' c' Hc') as [B1 B2]. rewrite E in B1, B2. lia. }
      rewrite !Nat.eqb_refl. simpl. ring.
    - destruct (Nat.eqb_spec i' i), (Nat.eqb_spec c' c); subst; try (exfalso; apply E; reflexivity); simpl; ring. }
  f_equal.
  - f_equal. rewrite <- G. unfold g. f_equal. f_equal. f_equal. apply functional_extensionality. intros k. unfold along. ring.
  - apply Derive_ext. exact G.
Qed.

(** The full laplacian loop. *)
Lemma laplacian_full np d f x : reads np d f ->
  laplacian_psi_over_psi (grad_x f) np d x None =
  Some (Rsum np (fun i => Rsum d (fun c => Derive (line f x i c) 0 ^ 2 + Derive (Derive (line f x i c)) 0))).
Proof.
  intros HR. unfold laplacian_psi_over_psi. f_equal. rewrite Rmult_1_r, Rsum_flat.
  apply Rsum_ext. intros i Hi. apply Rsum_ext. intros c Hc.
  assert (Hk : (i * d + c < np * d)%nat) by nia.
  replace (Nat.min (i * d + c) (np * d - 1)) with (i * d + c)%nat by lia.
  apply (scan_term np d f x i c HR Hi Hc).
Qed.

(** ** log|psi| along a line *)
Lemma ln_abs_line (phi : R -> R) : phi 0 <> 0 -> locally 0 (fun t => ex_derive phi t) -> ex_derive (Derive phi) 0 ->
  Derive (fun t => ln (Rabs (phi t))) 0 = Derive phi 0 / phi 0 /\
  Derive (Derive (fun t => ln (Rabs (phi t)))) 0 = Derive (Derive phi) 0 / phi 0 - (Derive phi 0 / phi 0) ^ 2.
Proof.
  intros H0 Hloc H2.
  assert (Hc : continuous phi 0) by (apply (@ex_derive_continuous R_AbsRing R_NormedModule phi 0); apply (locally_singleton _ _ Hloc)).
  assert (Hnz : locally 0 (fun t => phi t <> 0)).
  { assert (E : locally (phi 0) (fun y => y <> 0)).
    { assert (Hp : 0 < Rabs (phi 0)) by (apply Rabs_pos_lt; assumption). exists (mkposreal _ Hp). intros y Hy. 
      unfold ball in Hy. simpl in Hy. unfold AbsRing_ball, abs, minus, plus, opp in Hy. simpl in Hy. intros ->.
      rewrite Rplus_0_l, Rabs_Ropp in Hy. lra. }
    exact (Hc _ E). }
  assert (D1 : locally 0 (fun t => Derive (fun t => ln (Rabs (phi t))) t = Derive phi t / phi t)).
  { generalize (filter_and _ _ Hloc Hnz). apply filter_imp. intros t [A B]. apply is_derive_unique.
    replace (Derive phi t / phi t) with (scal (Derive phi t) (/ phi t)) by reflexivity.
    apply (is_derive_comp (fun y => ln (Rabs y)) phi); [apply is_derive_ln_abs; assumption|apply Derive_correct; assumption]. }
  split; [exact (locally_singleton _ _ D1)|].
  rewrite (Derive_ext_loc _ (fun t => Derive phi t / phi t) _ D1).
  rewrite Derive_div; [|assumption|exact (locally_singleton _ _ Hloc)|assumption].
  field. assumption.
Qed.

(** ** Norms along a line *)
(** sqrt of a quadratic. *)
Lemma sqrt_quadratic A B C t : 0 < A + 2 * B * t + C * t ^ 2 ->
  is_derive (fun t => sqrt (A + 2 * B * t + C * t ^ 2)) t ((B + C * t) / sqrt (A + 2 * B * t + C * t ^ 2)).
Proof.
  intros H. auto_derive; [replace (t * (t * 1)) with (t ^ 2) by ring; exact H|].
  replace (t * (t * 1)) with (t ^ 2) by ring. field. apply Rgt_not_eq, sqrt_lt_R0. exact H.
Qed.
Lemma quadratic_locally_pos A B C : 0 < A -> locally 0 (fun t => 0 < A + 2 * B * t + C * t ^ 2).
Proof.
  intros H. assert (Hc : continuous (fun t : R => A + 2 * B * t + C * t ^ 2) 0).
  { apply (ex_derive_continuous (fun t : R => A + 2 * B * t + C * t ^ 2)). auto_derive. trivial. }
  apply (Hc (fun y => 0 < y)). apply (open_gt 0). replace (A + 2 * B * 0 + C * 0 ^ 2) with A by ring. exact H.
Qed.
Lemma sqrt_quadratic_derive2 A B C : 0 < A ->
  is_derive (Derive (fun t => sqrt (A + 2 * B * t + C * t ^ 2))) 0 (C / sqrt A - B ^ 2 / sqrt A ^ 3).
Proof.
  intros H. pose proof (sqrt_lt_R0 A H) as Hs.
  apply (is_derive_ext_loc (fun t => (B + C * t) / sqrt (A + 2 * B * t + C * t ^ 2))).
  { generalize (quadratic_locally_pos A B C H). apply filter_imp. intros t Ht. symmetry. apply is_derive_unique, sqrt_quadratic, Ht. }
  auto_derive.
  - replace (A + 2 * B * 0 + C * (0 * (0 * 1))) with A by ring. repeat split; [exact H|]. apply Rgt_not_eq. exact Hs.
  - replace (A + 2 * B * 0 + C * (0 * (0 * 1))) with A by ring. field. lra.
Qed.

(** Norm of a displacement moved along coordinate c with speed sigma. *)
Definition shifted (u : nat -> R) (c : nat) (sigma t : R) (k : nat) : R := if Nat.eqb k c then u k + sigma * t else u k.
Lemma norm_shifted d u s c sigma t : (c < d)%nat ->
  compute_soft_norm d (shifted u c sigma t) s = sqrt (compute_soft_norm d u s ^ 2 + 2 * (sigma * u c) * t + sigma ^ 2 * t ^ 2).
Proof.
  intros Hc. unfold compute_soft_norm.
  assert (P : 0 <= Rsum d (fun k => u k ^ 2) + s ^ 2).
  { apply Rplus_le_le_0_compat; [apply Rsum_nonneg; intros; apply pow2_ge_0|apply pow2_ge_0]. }
  f_equal. rewrite pow2_sqrt by exact P.
  rewrite (Rsum_ext d (fun k => shifted u c sigma t k ^ 2) (fun k => u k ^ 2 + (if Nat.eqb k c then 2 * (sigma * u k) * t + sigma ^ 2 * t ^ 2 else 0))).
  - rewrite Rsum_plus, Rsum_indicator by assumption. ring.
  - intros k _. unfold shifted. destruct (Nat.eqb k c); ring.
Qed.
Lemma soft_norm_nonneg d u s : 0 <= compute_soft_norm d u s.
Proof. apply sqrt_pos. Qed.

Lemma norm_line_derive d u s c sigma : (c < d)%nat -> compute_soft_norm d u s <> 0 ->
  let N := fun t => compute_soft_norm d (shifted u c sigma t) s in
  let r := compute_soft_norm d u s in
  is_derive N 0 (sigma * u c / r) /\ locally 0 (fun t => ex_derive N t) /\
  is_derive (Derive N) 0 (sigma ^ 2 / r - (sigma * u c) ^ 2 / r ^ 3).
Proof.
  intros Hc Hr N r.
  assert (Hr0 : 0 < r) by (pose proof (soft_norm_nonneg d u s); unfold r in *; lra).
  assert (HA : 0 < r ^ 2) by (apply pow_lt; exact Hr0).
  assert (EN : forall t, N t = sqrt (r ^ 2 + 2 * (sigma * u c) * t + sigma ^ 2 * t ^ 2)) by (intros t; apply norm_shifted; assumption).
  assert (Er : sqrt (r ^ 2) = r) by (apply sqrt_pow2; lra).
  split; [|split].
  - apply (is_derive_ext (fun t => sqrt (r ^ 2 + 2 * (sigma * u c) * t + sigma ^ 2 * t ^ 2))); [intros t; symmetry; apply EN|].
    pose proof (sqrt_quadratic (r ^ 2) (sigma * u c) (sigma ^ 2) 0) as Q.
    replace (r ^ 2 + 2 * (sigma * u c) * 0 + sigma ^ 2 * 0 ^ 2) with (r ^ 2) in Q by ring. rewrite Er in Q.
    replace (sigma * u c + sigma ^ 2 * 0) with (sigma * u c) in Q by ring. apply Q. exact HA.
  - generalize (quadratic_locally_pos (r ^ 2) (sigma * u c) (sigma ^ 2) HA). apply filter_imp. intros t Ht.
    eapply ex_derive_ext; [intros t'; symmetry; apply EN|]. eexists. apply sqrt_quadratic. exact Ht.
  - apply (is_derive_ext (Derive (fun t => sqrt (r ^ 2 + 2 * (sigma * u c) * t + sigma ^ 2 * t ^ 2)))).
    + intros t. apply Derive_ext. intros t'. symmetry. apply EN.
    + pose proof (sqrt_quadratic_derive2 (r ^ 2) (sigma * u c) (sigma ^ 2) HA) as Q. rewrite Er in Q. exact Q.
Qed.
Lemma shifted_0 u c sigma : shifted u c sigma 0 = u.
Proof. apply functional_extensionality. intros k. unfold shifted. destruct (Nat.eqb k c); ring. Qed.

(** Squared displacement in terms of the softened norm. *)
Lemma sum_squares d u s : Rsum d (fun c => u c ^ 2) = compute_soft_norm d u s ^ 2 - s ^ 2.
Proof.
  unfold compute_soft_norm. rewrite pow2_sqrt; [ring|].
  apply Rplus_le_le_0_compat; [apply Rsum_nonneg; intros; apply pow2_ge_0|apply pow2_ge_0].
Qed.
Lemma soft_norm_distance d s a b : compute_soft_norm d (fun c => a c - b c) s = soft_distance d s a b.
Proof.
  unfold compute_soft_norm, soft_distance, distance. rewrite pow2_sqrt; [reflexivity|].
  apply Rsum_nonneg. intros; apply pow2_ge_0.
Qed.
