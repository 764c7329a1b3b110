(** * Integration by parts, hydrogen-like atom *)
From Coq Require Import Reals List Bool Arith Lra Lia FunctionalExtensionality.
From Coquelicot Require Import Coquelicot.
From Verif Require Import XReal Rsum M_stats M_physics S_physics P_unbiased P_stats P_xsum P_orders P_kinetic P_potential.
Import ListNotations.
Local Open Scope R_scope.

(** Twice differentiable at 0 with given derivatives. *)
Definition C2 (f : R -> R) (d1 d2 : R) : Prop :=
  is_derive f 0 d1 /\ locally 0 (fun t => ex_derive f t) /\ is_derive (Derive f) 0 d2.

Lemma C2_ext f g d1 d2 : (forall t, f t = g t) -> C2 f d1 d2 -> C2 g d1 d2.
Proof. intros H HC. replace g with f; [exact HC|]. apply functional_extensionality. exact H. Qed.
Lemma is_derive_constR (k t : R) : is_derive (fun _ : R => k) t 0.
Proof. apply (@is_derive_const R_AbsRing R_NormedModule). Qed.
Lemma C2_const k : C2 (fun _ => k) 0 0.
Proof.
  split; [apply is_derive_constR|]. split.
  - apply filter_forall. intros t. exists 0. apply is_derive_constR.
  - apply (is_derive_ext (fun _ => 0)); [|apply is_derive_constR]. intros t. symmetry. apply is_derive_unique, is_derive_constR.
Qed.
Lemma C2_plus f g a1 a2 b1 b2 : C2 f a1 a2 -> C2 g b1 b2 -> C2 (fun t => f t + g t) (a1 + b1) (a2 + b2).
Proof.
  intros (F1 & F2 & F3) (G1 & G2 & G3). split; [apply @is_derive_plus; assumption|]. split.
  - generalize (filter_and _ _ F2 G2). apply filter_imp. intros t [A B]. apply @ex_derive_plus; assumption.
  - apply (is_derive_ext_loc (fun t => Derive f t + Derive g t)).
    + generalize (filter_and _ _ F2 G2). apply filter_imp. intros t [A B]. symmetry. apply Derive_plus; assumption.
    + apply @is_derive_plus; assumption.
Qed.
Lemma C2_scal k f a1 a2 : C2 f a1 a2 -> C2 (fun t => k * f t) (k * a1) (k * a2).
Proof.
  intros (F1 & F2 & F3). split; [apply is_derive_scal; assumption|]. split.
  - revert F2. apply filter_imp. intros t A. apply ex_derive_scal. exact A.
  - apply (is_derive_ext (fun t => k * Derive f t)); [intros t; symmetry; apply Derive_scal|apply is_derive_scal; assumption].
Qed.
Lemma C2_Rsum n (f : nat -> R -> R) a1 a2 : (forall i, (i < n)%nat -> C2 (f i) (a1 i) (a2 i)) ->
  C2 (fun t => Rsum n (fun i => f i t)) (Rsum n a1) (Rsum n a2).
Proof.
  induction n as [|n IH]; intros H; [apply (C2_const 0)|]. cbn [Rsum]. apply C2_plus; [apply IH; intros; apply H; lia|apply H; lia].
Qed.
Lemma C2_eq f d1 d2 e1 e2 : d1 = e1 -> d2 = e2 -> C2 f d1 d2 -> C2 f e1 e2.
Proof. intros -> ->; trivial. Qed.

(** ** Displacements along a line *)
Definition ind (b : bool) : R := if b then 1 else 0.
Lemma disp_move_ei x locs a c t i j :
  compute_displacements (move x a c t) locs i j = shifted (compute_displacements x locs i j) c (ind (Nat.eqb i a)) t.
Proof.
  apply functional_extensionality. intros k. unfold compute_displacements, move, shifted, ind.
  destruct (Nat.eqb i a), (Nat.eqb k c); simpl; ring.
Qed.
Lemma disp_move_ee x a c t i j :
  compute_displacements (move x a c t) (move x a c t) i j = shifted (compute_displacements x x i j) c (ind (Nat.eqb i a) - ind (Nat.eqb j a)) t.
Proof.
  apply functional_extensionality. intros k. unfold compute_displacements, move, shifted, ind.
  destruct (Nat.eqb i a), (Nat.eqb j a), (Nat.eqb k c); simpl; ring.
Qed.
Lemma norm_C2 d u s c sigma : (c < d)%nat -> compute_soft_norm d u s <> 0 ->
  C2 (fun t => compute_soft_norm d (shifted u c sigma t) s) (sigma * (u c / compute_soft_norm d u s))
     (sigma ^ 2 * (1 / compute_soft_norm d u s - u c ^ 2 / compute_soft_norm d u s ^ 3)).
Proof.
  intros Hc Hr. destruct (norm_line_derive d u s c sigma Hc Hr) as (A & B & D). split; [|split].
  - replace (sigma * (u c / compute_soft_norm d u s)) with (sigma * u c / compute_soft_norm d u s) by (field; assumption). exact A.
  - exact B.
  - replace (sigma ^ 2 * (1 / compute_soft_norm d u s - u c ^ 2 / compute_soft_norm d u s ^ 3))
      with (sigma ^ 2 / compute_soft_norm d u s - (sigma * u c) ^ 2 / compute_soft_norm d u s ^ 3) by (field; assumption). exact D.
Qed.
Lemma norm_laplacian d u s : compute_soft_norm d u s <> 0 ->
  Rsum d (fun c => 1 / compute_soft_norm d u s - u c ^ 2 / compute_soft_norm d u s ^ 3) =
  (INR d - 1) / compute_soft_norm d u s + s ^ 2 / compute_soft_norm d u s ^ 3.
Proof.
  intros H. rewrite Rsum_minus, Rsum_const. unfold Rdiv at 2. rewrite Rsum_scal_r, (sum_squares d u s). field. assumption.
Qed.

Section U.
Variables (d nion : nat) (locs : positions) (Z : nat -> R) (bei : bool) (sei : R) (bee : bool) (see : R) (n : nat) (x : positions).
Hypothesis Hei : bei = true -> no_ion_coincidence d sei n nion x locs.
Hypothesis Hee : bee = true -> no_coincidence d see n x.
Let U := ibp_U d nion locs Z bei sei bee see n.

Definition qei (i j c : nat) : R := let r := soft_distance d sei (x i) (locs j) in 1 / r - (x i c - locs j c) ^ 2 / r ^ 3.
Definition qee (i j c : nat) : R := let r := soft_distance d see (x i) (x j) in 1 / r - (x i c - x j c) ^ 2 / r ^ 3.

Lemma U_C2_raw a c : (a < n)%nat -> (c < d)%nat ->
  C2 (line U x a c)
    ((if bei then - Rsum n (fun i => Rsum nion (fun j => Z j / 2 * (ind (Nat.eqb i a) * ((x i c - locs j c) / soft_distance d sei (x i) (locs j))))) else 0)
     + (if bee then Rsum n (fun i => Rsum n (fun j => if Nat.ltb i j then 1 / 4 * ((ind (Nat.eqb i a) - ind (Nat.eqb j a)) * ((x i c - x j c) / soft_distance d see (x i) (x j))) else 0)) else 0))
    ((if bei then - Rsum n (fun i => Rsum nion (fun j => Z j / 2 * (ind (Nat.eqb i a) ^ 2 * qei i j c))) else 0)
     + (if bee then Rsum n (fun i => Rsum n (fun j => if Nat.ltb i j then 1 / 4 * ((ind (Nat.eqb i a) - ind (Nat.eqb j a)) ^ 2 * qee i j c) else 0)) else 0)).
Proof.
  intros Ha Hc.
  set (u1 := fun t => if bei then - Rsum n (fun i => Rsum nion (fun j => Z j / 2 * compute_soft_norm d (shifted (compute_displacements x locs i j) c (ind (Nat.eqb i a)) t) sei)) else 0).
  set (u2 := fun t => if bee then Rsum n (fun i => Rsum n (fun j => if Nat.ltb i j then 1 / 4 * compute_soft_norm d (shifted (compute_displacements x x i j) c (ind (Nat.eqb i a) - ind (Nat.eqb j a)) t) see else 0)) else 0).
  apply (C2_ext (fun t => u1 t + u2 t)).
  { intros t. unfold line, U, ibp_U, u1, u2. rewrite Rplus_0_l. f_equal.
    - destruct bei; [|reflexivity]. f_equal. apply Rsum_ext. intros i _. apply Rsum_ext. intros j _. rewrite disp_move_ei. unfold Rdiv. ring.
    - destruct bee; [|reflexivity]. apply Rsum_ext. intros i _. apply Rsum_ext. intros j _. destruct (Nat.ltb i j); [|reflexivity]. rewrite disp_move_ee. unfold Rdiv. ring. }
  apply C2_plus.
  - unfold u1. destruct bei; [|apply C2_const].
    apply (C2_eq _ (-1 * Rsum n (fun i => Rsum nion (fun j => Z j / 2 * (ind (Nat.eqb i a) * ((x i c - locs j c) / soft_distance d sei (x i) (locs j))))))
                   (-1 * Rsum n (fun i => Rsum nion (fun j => Z j / 2 * (ind (Nat.eqb i a) ^ 2 * qei i j c))))); [ring|ring|].
    apply (C2_ext (fun t => -1 * Rsum n (fun i => Rsum nion (fun j => Z j / 2 * compute_soft_norm d (shifted (compute_displacements x locs i j) c (ind (Nat.eqb i a)) t) sei)))); [intros t; ring|].
    apply C2_scal. 
    apply (C2_Rsum n (fun i t => Rsum nion (fun j => Z j / 2 * compute_soft_norm d (shifted (compute_displacements x locs i j) c (ind (Nat.eqb i a)) t) sei))
             (fun i => Rsum nion (fun j => Z j / 2 * (ind (Nat.eqb i a) * ((x i c - locs j c) / soft_distance d sei (x i) (locs j)))))
             (fun i => Rsum nion (fun j => Z j / 2 * (ind (Nat.eqb i a) ^ 2 * qei i j c)))). intros i Hi.
    apply (C2_Rsum nion (fun j t => Z j / 2 * compute_soft_norm d (shifted (compute_displacements x locs i j) c (ind (Nat.eqb i a)) t) sei)
             (fun j => Z j / 2 * (ind (Nat.eqb i a) * ((x i c - locs j c) / soft_distance d sei (x i) (locs j))))
             (fun j => Z j / 2 * (ind (Nat.eqb i a) ^ 2 * qei i j c))). intros j Hj.
    apply C2_scal. unfold qei. cbv zeta. rewrite <- soft_norm_disp. apply norm_C2; [assumption|]. rewrite soft_norm_disp. apply Hei; [reflexivity|assumption..].
  - unfold u2. destruct bee; [|apply C2_const].
    apply (C2_Rsum n (fun i t => Rsum n (fun j => if Nat.ltb i j then 1 / 4 * compute_soft_norm d (shifted (compute_displacements x x i j) c (ind (Nat.eqb i a) - ind (Nat.eqb j a)) t) see else 0))
             (fun i => Rsum n (fun j => if Nat.ltb i j then 1 / 4 * ((ind (Nat.eqb i a) - ind (Nat.eqb j a)) * ((x i c - x j c) / soft_distance d see (x i) (x j))) else 0))
             (fun i => Rsum n (fun j => if Nat.ltb i j then 1 / 4 * ((ind (Nat.eqb i a) - ind (Nat.eqb j a)) ^ 2 * qee i j c) else 0))). intros i Hi.
    apply (C2_Rsum n (fun j t => if Nat.ltb i j then 1 / 4 * compute_soft_norm d (shifted (compute_displacements x x i j) c (ind (Nat.eqb i a) - ind (Nat.eqb j a)) t) see else 0)
             (fun j => if Nat.ltb i j then 1 / 4 * ((ind (Nat.eqb i a) - ind (Nat.eqb j a)) * ((x i c - x j c) / soft_distance d see (x i) (x j))) else 0)
             (fun j => if Nat.ltb i j then 1 / 4 * ((ind (Nat.eqb i a) - ind (Nat.eqb j a)) ^ 2 * qee i j c) else 0)). intros j Hj.
    destruct (Nat.ltb_spec i j) as [Hij|Hij]; [|apply C2_const].
    apply C2_scal. unfold qee. cbv zeta. rewrite <- soft_norm_disp. apply norm_C2; [assumption|]. rewrite soft_norm_disp. apply Hee; [reflexivity|lia..].
Qed.

(** The gradient computed by the code is the derivative. *)
Lemma grad_U_raw a c : (a < n)%nat -> (c < d)%nat ->
  ibp_grad_U d nion locs Z bei sei bee see n x a c =
  (if bei then - Rsum n (fun i => Rsum nion (fun j => Z j / 2 * (ind (Nat.eqb i a) * ((x i c - locs j c) / soft_distance d sei (x i) (locs j))))) else 0)
  + (if bee then Rsum n (fun i => Rsum n (fun j => if Nat.ltb i j then 1 / 4 * ((ind (Nat.eqb i a) - ind (Nat.eqb j a)) * ((x i c - x j c) / soft_distance d see (x i) (x j))) else 0)) else 0).
Proof.
  intros Ha Hc. unfold ibp_grad_U, soft_norm_bwd. cbn [fst]. f_equal.
  - destruct bei; [|reflexivity].
    rewrite (Rsum_single n a); [|assumption|].
    + unfold ind. rewrite Nat.eqb_refl. replace (- Rsum nion (fun j => Z j / 2 * (1 * ((x a c - locs j c) / soft_distance d sei (x a) (locs j)))))
        with (-1 * Rsum nion (fun j => Z j / 2 * (1 * ((x a c - locs j c) / soft_distance d sei (x a) (locs j))))) by ring.
      rewrite <- Rsum_scal. apply Rsum_ext. intros j Hj. rewrite soft_norm_disp.
      destruct (Req_EM_T _ _) as [E|E]; [exfalso; revert E; apply Hei; [reflexivity|assumption..]|]. unfold compute_displacements. field. exact E.
    + intros i _ Hne. unfold ind. destruct (Nat.eqb_spec i a); [contradiction|]. apply Rsum_eq_0. intros. ring.
  - destruct bee; [|reflexivity].
    transitivity (Rsum n (fun j => if Nat.ltb a j then 1 / 4 * ((x a c - x j c) / soft_distance d see (x a) (x j)) else 0)
                  - Rsum n (fun i => if Nat.ltb i a then 1 / 4 * ((x i c - x a c) / soft_distance d see (x i) (x a)) else 0)).
    + f_equal; apply Rsum_ext; intros j Hj; rewrite soft_norm_disp; unfold compute_displacements;
        [destruct (Nat.ltb_spec a j) as [L|L]|destruct (Nat.ltb_spec j a) as [L|L]]; try ring;
        (destruct (Req_EM_T _ _) as [E|E]; [exfalso; revert E; apply Hee; [reflexivity|lia..]|reflexivity]).
    + symmetry.
      rewrite (Rsum_ext n _ (fun i => Rsum n (fun j => if Nat.ltb i j then ind (Nat.eqb i a) * (1 / 4 * ((x i c - x j c) / soft_distance d see (x i) (x j))) else 0)
            - Rsum n (fun j => if Nat.ltb i j then ind (Nat.eqb j a) * (1 / 4 * ((x i c - x j c) / soft_distance d see (x i) (x j))) else 0))).
      2:{ intros i _. rewrite <- Rsum_minus. apply Rsum_ext. intros j _. destruct (Nat.ltb i j); ring. }
      rewrite Rsum_minus. f_equal.
      * rewrite (Rsum_single n a); [|assumption|].
        -- apply Rsum_ext. intros j _. unfold ind. rewrite Nat.eqb_refl. destruct (Nat.ltb a j); ring.
        -- intros i _ Hne. apply Rsum_eq_0. intros j _. unfold ind. destruct (Nat.eqb_spec i a); [contradiction|]. destruct (Nat.ltb i j); ring.
      * apply Rsum_ext. intros i Hi. rewrite (Rsum_single n a); [|assumption|].
        -- unfold ind. rewrite Nat.eqb_refl. destruct (Nat.ltb i a); ring.
        -- intros j _ Hne. unfold ind. destruct (Nat.eqb_spec j a); [contradiction|]. destruct (Nat.ltb i j); ring.
Qed.

Definition lap_line (a c : nat) : R :=
  (if bei then - Rsum n (fun i => Rsum nion (fun j => Z j / 2 * (ind (Nat.eqb i a) ^ 2 * qei i j c))) else 0)
  + (if bee then Rsum n (fun i => Rsum n (fun j => if Nat.ltb i j then 1 / 4 * ((ind (Nat.eqb i a) - ind (Nat.eqb j a)) ^ 2 * qee i j c) else 0)) else 0).
Lemma U_C2 a c : (a < n)%nat -> (c < d)%nat -> C2 (line U x a c) (ibp_grad_U d nion locs Z bei sei bee see n x a c) (lap_line a c).
Proof. intros Ha Hc. rewrite grad_U_raw by assumption. apply U_C2_raw; assumption. Qed.

Lemma Rsum_opp m f : Rsum m (fun i => - f i) = - Rsum m f.
Proof. replace (- Rsum m f) with (-1 * Rsum m f) by ring. rewrite <- Rsum_scal. apply Rsum_ext. intros; ring. Qed.
Lemma Rsum_ind_sq m i : (i < m)%nat -> Rsum m (fun a => ind (Nat.eqb i a) ^ 2) = 1.
Proof.
  intros H. rewrite (Rsum_single m i); [unfold ind; rewrite Nat.eqb_refl; ring|assumption|].
  intros a _ Hne. unfold ind. destruct (Nat.eqb_spec i a); [congruence|ring].
Qed.
Lemma Rsum_ind_pair m i j : (i < j < m)%nat -> Rsum m (fun a => (ind (Nat.eqb i a) - ind (Nat.eqb j a)) ^ 2) = 2.
Proof.
  intros H. rewrite (Rsum_ext m _ (fun a => ind (Nat.eqb i a) ^ 2 + ind (Nat.eqb j a) ^ 2)).
  - rewrite Rsum_plus, !Rsum_ind_sq by lia. ring.
  - intros a _. unfold ind. destruct (Nat.eqb_spec i a), (Nat.eqb_spec j a); try lia; ring.
Qed.

Lemma lap_total : Rsum n (fun a => Rsum d (fun c => lap_line a c)) =
  (if bei then - Rsum n (fun i => Rsum nion (fun j => let r := soft_distance d sei (x i) (locs j) in Z j / 2 * ((INR d - 1) / r + sei ^ 2 / r ^ 3))) else 0)
  + (if bee then lsum (map (fun ij => let r := soft_distance d see (x (fst ij)) (x (snd ij)) in 1 / 2 * ((INR d - 1) / r + see ^ 2 / r ^ 3)) (unordered_pairs n)) else 0).
Proof.
  unfold lap_line.
  rewrite (Rsum_ext n _ (fun a => Rsum d (fun c => if bei then - Rsum n (fun i => Rsum nion (fun j => Z j / 2 * (ind (Nat.eqb i a) ^ 2 * qei i j c))) else 0)
     + Rsum d (fun c => if bee then Rsum n (fun i => Rsum n (fun j => if Nat.ltb i j then 1 / 4 * ((ind (Nat.eqb i a) - ind (Nat.eqb j a)) ^ 2 * qee i j c) else 0)) else 0)))
    by (intros; apply Rsum_plus).
  rewrite Rsum_plus. f_equal.
  - destruct bei.
    2:{ apply Rsum_eq_0. intros. apply Rsum_0. }
    rewrite (Rsum_ext n _ (fun a => - Rsum d (fun c => Rsum n (fun i => Rsum nion (fun j => Z j / 2 * (ind (Nat.eqb i a) ^ 2 * qei i j c)))))) by (intros; apply Rsum_opp).
    rewrite Rsum_opp. f_equal.
    rewrite (Rsum_ext n _ (fun a => Rsum n (fun i => Rsum nion (fun j => ind (Nat.eqb i a) ^ 2 * (Z j / 2 * Rsum d (qei i j)))))).
    2:{ intros a _. rewrite Rsum_swap. apply Rsum_ext. intros i _. rewrite Rsum_swap. apply Rsum_ext. intros j _. rewrite <- !Rsum_scal. apply Rsum_ext. intros; ring. }
    rewrite Rsum_swap. apply Rsum_ext. intros i Hi. rewrite Rsum_swap. apply Rsum_ext. intros j Hj.
    rewrite Rsum_scal_r, Rsum_ind_sq by assumption. rewrite Rmult_1_l. cbv zeta. f_equal.
    unfold qei. rewrite <- soft_norm_disp. apply (norm_laplacian d (compute_displacements x locs i j) sei). rewrite soft_norm_disp. apply Hei; [reflexivity|assumption..].
  - destruct bee.
    2:{ apply Rsum_eq_0. intros. apply Rsum_0. }
    cbv zeta. rewrite (pairs_lsum n (fun i j => 1 / 2 * ((INR d - 1) / soft_distance d see (x i) (x j) + see ^ 2 / soft_distance d see (x i) (x j) ^ 3))).
    rewrite (Rsum_ext n _ (fun a => Rsum n (fun i => Rsum n (fun j => (ind (Nat.eqb i a) - ind (Nat.eqb j a)) ^ 2 * (if Nat.ltb i j then 1 / 4 * Rsum d (qee i j) else 0))))).
    2:{ intros a _. rewrite Rsum_swap. apply Rsum_ext. intros i _. rewrite Rsum_swap. apply Rsum_ext. intros j _.
        destruct (Nat.ltb i j); [|rewrite Rsum_0; ring]. rewrite <- !Rsum_scal. apply Rsum_ext. intros; ring. }
    rewrite Rsum_swap. apply Rsum_ext. intros i Hi. rewrite Rsum_swap. apply Rsum_ext. intros j Hj.
    rewrite Rsum_scal_r. destruct (Nat.ltb_spec i j) as [L|L]; [|ring]. rewrite Rsum_ind_pair by lia. cbv zeta.
    replace (Rsum d (qee i j)) with ((INR d - 1) / soft_distance d see (x i) (x j) + see ^ 2 / soft_distance d see (x i) (x j) ^ 3); [lra|].
    symmetry. unfold qee. rewrite <- soft_norm_disp. apply (norm_laplacian d (compute_displacements x x i j) see). rewrite soft_norm_disp. apply Hee; [reflexivity|lia..].
Qed.
End U.

(** ** The divergence identity *)
Lemma C2_of f : locally 0 (fun t => ex_derive f t) -> ex_derive (Derive f) 0 -> C2 f (Derive f 0) (Derive (Derive f) 0).
Proof.
  intros H1 H2. split; [apply Derive_correct, (locally_singleton _ _ H1)|]. split; [exact H1|apply Derive_correct, H2].
Qed.
Lemma divergence_line (phi u : R -> R) p1 p2 u1 u2 (b : bool) : C2 phi p1 p2 -> C2 u u1 u2 ->
  Derive (fun t => phi t ^ 2 * Derive u t - (if b then 1 / 2 * (phi t * Derive phi t) else 0)) 0 =
  2 * phi 0 * p1 * u1 + phi 0 ^ 2 * u2 - (if b then 1 / 2 * (p1 ^ 2 + phi 0 * p2) else 0).
Proof.
  intros (F1 & F2 & F3) (G1 & G2 & G3). apply is_derive_unique.
  pose proof (is_derive_unique _ _ _ F1) as E1. pose proof (is_derive_unique _ _ _ G1) as E2.
  pose proof (is_derive_unique _ _ _ F3) as E3. pose proof (is_derive_unique _ _ _ G3) as E4.
  assert (X1 : ex_derive phi 0) by (exists p1; exact F1). assert (X2 : ex_derive (Derive phi) 0) by (exists p2; exact F3).
  assert (X3 : ex_derive (Derive u) 0) by (exists u2; exact G3).
  destruct b; auto_derive.
  - repeat split; assumption.
  - change (Derive (fun t => phi t) 0) with (Derive phi 0). change (Derive (fun t => Derive u t) 0) with (Derive (Derive u) 0).
    change (Derive (fun t => Derive phi t) 0) with (Derive (Derive phi) 0).
    change (Derive (fun x => Derive (fun y => u y) x) 0) with (Derive (Derive u) 0).
    change (Derive (fun x => Derive (fun y => phi y) x) 0) with (Derive (Derive phi) 0).
    change (Derive (fun y => u y) 0) with (Derive u 0). change (Derive (fun y => phi y) 0) with (Derive phi 0).
    rewrite E1, E2, E3, E4. field.
  - repeat split; assumption.
  - change (Derive (fun t => phi t) 0) with (Derive phi 0). change (Derive (fun t => Derive u t) 0) with (Derive (Derive u) 0).
    change (Derive (fun x => Derive (fun y => u y) x) 0) with (Derive (Derive u) 0).
    change (Derive (fun y => u y) 0) with (Derive u 0).
    rewrite E1, E2, E4. ring.
Qed.
