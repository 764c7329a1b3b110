(** * Local energies under relabelling of electrons and rigid translations; the hydrogen atom *)
From Coq Require Import Reals String List Arith Bool Lra Lia Permutation FunctionalExtensionality.
From Coquelicot Require Import Coquelicot.
From Verif Require Import XReal Rsum Det M_stats M_distribute M_energy M_physics M_setup S_energy S_physics S_setup
  P_distribute P_stats P_unbiased P_xsum P_orders P_kinetic P_potential P_ibp P_spin P_energy P_grad P_slog T_physics P_setup.
Import ListNotations.
Local Open Scope R_scope.

(** ** Relabelling *)
Section Relabel.
Variables (n d : nat) (f : positions -> R) (s : nat -> nat).
Hypothesis HR : reads n d f.
Hypothesis Hs : renumbering n s.
Hypothesis Hsym : forall y, f (fun i => y (s i)) = f y.

Lemma line_relabel x i c t : (i < n)%nat -> line f (fun i => x (s i)) i c t = line f x (s i) c t.
Proof.
  intros Hi. unfold line. rewrite <- (Hsym (move x (s i) c t)). apply HR. intros i' c' Hi' _. unfold move.
  destruct (Nat.eqb_spec i' i) as [->|Hne]; [rewrite Nat.eqb_refl; reflexivity|].
  destruct (Nat.eqb_spec (s i') (s i)) as [E|_]; [|reflexivity]. exfalso. apply Hne. apply (renumbering_inj n s Hs); assumption.
Qed.
Lemma line_relabel_fun x i c : (i < n)%nat -> line f (fun i => x (s i)) i c = line f x (s i) c.
Proof. intros Hi. apply functional_extensionality. intros t. apply line_relabel. assumption. Qed.

Lemma grad_relabel x i c : (i < n)%nat -> grad_x f (fun i => x (s i)) i c = grad_x f x (s i) c.
Proof. intros Hi. rewrite !grad_x_line, line_relabel_fun by assumption. reflexivity. Qed.

Lemma kinetic_relabel x : laplacian_kinetic_energy f n d (fun i => x (s i)) = laplacian_kinetic_energy f n d x.
Proof.
  unfold laplacian_kinetic_energy. rewrite !laplacian_full by assumption. cbn [option_map]. do 2 f_equal.
  set (h := fun a => Rsum d (fun c => Derive (line f x a c) 0 ^ 2 + Derive (Derive (line f x a c)) 0)).
  change (Rsum n (fun i => Rsum d (fun c => Derive (line f x i c) 0 ^ 2 + Derive (Derive (line f x i c)) 0))) with (Rsum n h).
  rewrite <- (Rsum_renumber n s h Hs). apply Rsum_ext. intros i Hi. unfold h. apply Rsum_ext. intros c _.
  rewrite line_relabel_fun by assumption. reflexivity.
Qed.

Lemma sampled_kinetic_relabel k x perm : renumbering n perm ->
  random_particle_kinetic_energy f k n d (fun i => x (s i)) perm = random_particle_kinetic_energy f k n d x (fun i => s (perm i)).
Proof.
  intros Hp. unfold random_particle_kinetic_energy, laplacian_psi_over_psi. destruct k as [|k]; [reflexivity|]. cbn [option_map]. do 3 f_equal.
  destruct (Nat.eq_dec (n * d) 0) as [E|E].
  { rewrite E. apply Rsum_ext. intros i _. reflexivity. }
  apply Rsum_ext. intros i Hi. set (r := Nat.min i (n * d - 1)). assert (Hr : (r < n * d)%nat) by (unfold r; lia).
  assert (Hd : (0 < d)%nat) by (destruct d; lia).
  assert (Hq : (r / d < n)%nat) by (apply Nat.div_lt_upper_bound; lia).
  assert (Hm : (r mod d < d)%nat) by (apply Nat.mod_upper_bound; lia).
  pose proof (renumbering_bound n perm Hp _ Hq) as Hb. pose proof (renumbering_bound n s Hs _ Hb) as Hb'.
  pose proof (scan_term n d f (fun i => x (s i)) (perm (r / d)%nat) (r mod d)%nat HR Hb Hm) as T1.
  pose proof (scan_term n d f x (s (perm (r / d)%nat)) (r mod d)%nat HR Hb' Hm) as T2. cbv zeta in T1, T2.
  rewrite line_relabel_fun in T1 by assumption. rewrite <- T2 in T1. exact T1.
Qed.
End Relabel.

(** ** The gradient of the auxiliary potential *)
Definition unit_back (d : nat) (u : nat -> R) (sft : R) (c : nat) : R :=
  if Req_EM_T (compute_soft_norm d u sft) 0 then 0 else u c / compute_soft_norm d u sft.

Lemma disp_opp x y i j c : compute_displacements x y i j c = - compute_displacements y x j i c.
Proof. unfold compute_displacements. ring. Qed.
Lemma norm_disp_sym d x i j sft : compute_soft_norm d (compute_displacements x x i j) sft = compute_soft_norm d (compute_displacements x x j i) sft.
Proof. rewrite !soft_norm_disp. apply soft_distance_sym. Qed.
Lemma unit_back_opp d x i j sft c : unit_back d (compute_displacements x x i j) sft c = - unit_back d (compute_displacements x x j i) sft c.
Proof.
  unfold unit_back. rewrite norm_disp_sym. destruct (Req_EM_T _ 0); [ring|]. rewrite (disp_opp x x i j). field. assumption.
Qed.

Lemma grad_U_pairs d nion locs Z bei sei bee see n x a c : ibp_grad_U d nion locs Z bei sei bee see n x a c =
  (if bei then Rsum nion (fun j => - (Z j / 2) * unit_back d (compute_displacements x locs a j) sei c) else 0) +
  (if bee then Rsum n (fun j => if Nat.eqb a j then 0 else 1 / 4 * unit_back d (compute_displacements x x a j) see c) else 0).
Proof.
  unfold ibp_grad_U, soft_norm_bwd. cbn [fst]. f_equal. destruct bee; [|reflexivity]. rewrite <- Rsum_minus. apply Rsum_ext. intros j _.
  pose proof (unit_back_opp d x j a see c) as U. unfold unit_back in *.
  destruct (Nat.ltb_spec a j), (Nat.ltb_spec j a), (Nat.eqb_spec a j); try lia; try (rewrite U); ring.
Qed.

Lemma grad_U_relabel d nion locs Z bei sei bee see n x s a c : renumbering n s -> (a < n)%nat ->
  ibp_grad_U d nion locs Z bei sei bee see n (fun i => x (s i)) a c = ibp_grad_U d nion locs Z bei sei bee see n x (s a) c.
Proof.
  intros Hs Ha. rewrite !grad_U_pairs. f_equal. destruct bee; [|reflexivity].
  rewrite <- (Rsum_renumber n s (fun j => if Nat.eqb (s a) j then 0 else 1 / 4 * unit_back d (compute_displacements x x (s a) j) see c) Hs).
  apply Rsum_ext. intros j Hj. destruct (Nat.eqb_spec a j) as [->|Hne]; [rewrite Nat.eqb_refl; reflexivity|].
  destruct (Nat.eqb_spec (s a) (s j)) as [E|_]; [|reflexivity]. exfalso. apply Hne. apply (renumbering_inj n s Hs); assumption.
Qed.

Lemma molecular_relabel d nion locs Z sei see n x f s : reads n d f -> renumbering n s -> (forall y, f (fun i => y (s i)) = f y) ->
  molecular_local_energy f d nion locs Z sei see n (fun i => x (s i)) = molecular_local_energy f d nion locs Z sei see n x.
Proof.
  intros HR Hs Hsym. unfold molecular_local_energy. rewrite kinetic_relabel, ei_renumber, ee_renumber, !ii_eq by assumption. reflexivity.
Qed.

Lemma ibp_relabel d nion locs Z bk bei sei bee see n x f s : reads n d f -> renumbering n s -> (forall y, f (fun i => y (s i)) = f y) ->
  ibp_local_energy f d nion locs Z bk bei sei bee see n (fun i => x (s i)) = ibp_local_energy f d nion locs Z bk bei sei bee see n x.
Proof.
  intros HR Hs Hsym. unfold ibp_local_energy. rewrite kinetic_relabel, ei_renumber, ee_renumber, !ii_eq by assumption.
  replace (ibp_energy_term f d nion locs Z bk bei sei bee see n (fun i => x (s i)))
    with (ibp_energy_term f d nion locs Z bk bei sei bee see n x); [reflexivity|].
  unfold ibp_energy_term. f_equal; [f_equal|destruct bk; [f_equal|reflexivity]].
  - rewrite <- (Rsum_renumber n s (fun i => Rsum d (fun c => grad_x f x i c * ibp_grad_U d nion locs Z bei sei bee see n x i c)) Hs).
    apply Rsum_ext. intros i Hi. apply Rsum_ext. intros c _.
    rewrite (grad_U_relabel d nion locs Z bei sei bee see n x s i c) by assumption. rewrite (grad_relabel n d f s) by assumption. reflexivity.
  - rewrite <- (Rsum_renumber n s (fun i => Rsum d (fun c => grad_x f x i c ^ 2)) Hs).
    apply Rsum_ext. intros i Hi. apply Rsum_ext. intros c _. rewrite (grad_relabel n d f s) by assumption. reflexivity.
Qed.

Lemma random_relabel d nion locs Z k bk bei bee sei see n x f s perm : reads n d f -> renumbering n s -> renumbering n perm -> (forall y, f (fun i => y (s i)) = f y) ->
  random_particle_local_energy f d nion locs Z k bk bei bee sei see n (fun i => x (s i)) perm =
  random_particle_local_energy f d nion locs Z k bk bei bee sei see n x (fun i => s (perm i)).
Proof.
  intros HR Hs Hp Hsym. unfold random_particle_local_energy. do 3 f_equal. f_equal.
  destruct bk; [apply sampled_kinetic_relabel; assumption|apply kinetic_relabel; assumption].
Qed.

(** ** Translation *)
Definition shift (v : nat -> R) (y : positions) : positions := fun i c => y i c + v c.
Definition unshift (v : nat -> R) (y : positions) : positions := fun i c => y i c - v c.

Lemma disp_shift x y v : compute_displacements (shift v x) (shift v y) = compute_displacements x y.
Proof. do 3 (apply functional_extensionality; intros ?). unfold compute_displacements, shift. ring. Qed.

Lemma reads_shift n d (f : positions -> R) v : reads n d f -> reads n d (fun y => f (unshift v y)).
Proof. intros H x y E. apply H. intros i c Hi Hc. unfold unshift. rewrite (E i c Hi Hc). reflexivity. Qed.

Lemma line_shift (f : positions -> R) x v i c : line (fun y => f (unshift v y)) (shift v x) i c = line f x i c.
Proof.
  apply functional_extensionality. intros t. unfold line. f_equal. do 2 (apply functional_extensionality; intros ?).
  unfold unshift, move, shift. destruct (_ && _)%bool; ring.
Qed.
Lemma grad_shift (f : positions -> R) x v i c : grad_x (fun y => f (unshift v y)) (shift v x) i c = grad_x f x i c.
Proof. rewrite !grad_x_line, line_shift. reflexivity. Qed.

Section Shift.
Variables (d nion : nat) (locs : positions) (Z : nat -> R) (n : nat) (v : nat -> R).

Lemma ei_shift g sft np x : electron_ion_potential d nion (shift v locs) Z g sft np n (shift v x) = electron_ion_potential d nion locs Z g sft np n x.
Proof. unfold electron_ion_potential. rewrite disp_shift. reflexivity. Qed.
Lemma ee_shift g sft np x : electron_electron_potential d g sft np n (shift v x) = electron_electron_potential d g sft np n x.
Proof. unfold electron_electron_potential. rewrite disp_shift. reflexivity. Qed.
Lemma ii_shift x : ion_ion_potential d nion (shift v locs) Z n (shift v x) = ion_ion_potential d nion locs Z n x.
Proof. unfold ion_ion_potential. rewrite disp_shift. reflexivity. Qed.
Lemma grad_U_shift bei sei bee see x : ibp_grad_U d nion (shift v locs) Z bei sei bee see n (shift v x) = ibp_grad_U d nion locs Z bei sei bee see n x.
Proof. unfold ibp_grad_U. rewrite !disp_shift. reflexivity. Qed.

Variable f : positions -> R.
Hypothesis HR : reads n d f.

Lemma kinetic_shift x : laplacian_kinetic_energy (fun y => f (unshift v y)) n d (shift v x) = laplacian_kinetic_energy f n d x.
Proof.
  unfold laplacian_kinetic_energy. rewrite (laplacian_full n d f) by assumption.
  rewrite (laplacian_full n d (fun y => f (unshift v y))) by (apply reads_shift; assumption). cbn [option_map]. do 2 f_equal.
  apply Rsum_ext. intros i _. apply Rsum_ext. intros c _. rewrite line_shift. reflexivity.
Qed.

Lemma molecular_shift sei see x :
  molecular_local_energy (fun y => f (unshift v y)) d nion (shift v locs) Z sei see n (shift v x) = molecular_local_energy f d nion locs Z sei see n x.
Proof. unfold molecular_local_energy. rewrite kinetic_shift, ei_shift, ee_shift, ii_shift. reflexivity. Qed.

Lemma ibp_shift bk bei sei bee see x :
  ibp_local_energy (fun y => f (unshift v y)) d nion (shift v locs) Z bk bei sei bee see n (shift v x) = ibp_local_energy f d nion locs Z bk bei sei bee see n x.
Proof.
  unfold ibp_local_energy. rewrite kinetic_shift, ei_shift, ee_shift, ii_shift.
  replace (ibp_energy_term (fun y => f (unshift v y)) d nion (shift v locs) Z bk bei sei bee see n (shift v x))
    with (ibp_energy_term f d nion locs Z bk bei sei bee see n x); [reflexivity|].
  unfold ibp_energy_term. rewrite grad_U_shift. f_equal; [f_equal|destruct bk; [f_equal|reflexivity]].
  - apply Rsum_ext. intros i Hi. apply Rsum_ext. intros c _. rewrite grad_shift. reflexivity.
  - apply Rsum_ext. intros i Hi. apply Rsum_ext. intros c _. rewrite grad_shift. reflexivity.
Qed.

Lemma sampled_kinetic_shift k x perm : renumbering n perm ->
  random_particle_kinetic_energy (fun y => f (unshift v y)) k n d (shift v x) perm = random_particle_kinetic_energy f k n d x perm.
Proof.
  intros Hp. unfold random_particle_kinetic_energy, laplacian_psi_over_psi. destruct k as [|k]; [reflexivity|]. cbn [option_map]. do 3 f_equal.
  destruct (Nat.eq_dec (n * d) 0) as [E|E].
  { rewrite E. apply Rsum_ext. intros i _. reflexivity. }
  apply Rsum_ext. intros i Hi. set (r := Nat.min i (n * d - 1)). assert (Hr : (r < n * d)%nat) by (unfold r; lia).
  assert (Hd : (0 < d)%nat) by (destruct d; lia).
  assert (Hq : (r / d < n)%nat) by (apply Nat.div_lt_upper_bound; lia).
  assert (Hm : (r mod d < d)%nat) by (apply Nat.mod_upper_bound; lia).
  pose proof (renumbering_bound n perm Hp _ Hq) as Hb.
  pose proof (scan_term n d (fun y => f (unshift v y)) (shift v x) (perm (r / d)%nat) (r mod d)%nat (reads_shift n d f v HR) Hb Hm) as T1.
  pose proof (scan_term n d f x (perm (r / d)%nat) (r mod d)%nat HR Hb Hm) as T2. cbv zeta in T1, T2.
  rewrite line_shift in T1. rewrite <- T2 in T1. exact T1.
Qed.

Lemma random_shift k bk bei bee sei see x perm : renumbering n perm ->
  random_particle_local_energy (fun y => f (unshift v y)) d nion (shift v locs) Z k bk bei bee sei see n (shift v x) perm =
  random_particle_local_energy f d nion locs Z k bk bei bee sei see n x perm.
Proof.
  intros Hp. unfold random_particle_local_energy.
  change (fun i => shift v x (perm i)) with (shift v (fun i => x (perm i))). rewrite ei_shift, ee_shift, ii_shift. do 4 f_equal.
  destruct bk; [apply sampled_kinetic_shift; assumption|apply kinetic_shift].
Qed.
End Shift.

(** ** The hydrogen atom *)
Lemma C2_exp f d1 d2 : C2 f d1 d2 -> C2 (fun t => exp (f t)) (exp (f 0) * d1) (exp (f 0) * (d1 ^ 2 + d2)).
Proof.
  intros (F1 & F2 & F3).
  assert (E : forall t, ex_derive f t -> is_derive (fun t => exp (f t)) t (exp (f t) * Derive f t)).
  { intros t H. replace (exp (f t) * Derive f t) with (Derive f t * exp (f t)) by ring.
    apply (is_derive_comp exp f t (exp (f t)) (Derive f t)); [apply is_derive_exp|apply Derive_correct; assumption]. }
  assert (D0 : Derive f 0 = d1) by (apply is_derive_unique; assumption).
  split; [rewrite <- D0; apply E; exists d1; assumption|]. split.
  - revert F2. apply filter_imp. intros t H. eexists. apply E. exact H.
  - apply (is_derive_ext_loc (fun t => exp (f t) * Derive f t)).
    + revert F2. apply filter_imp. intros t H. symmetry. apply is_derive_unique. apply E. exact H.
    + replace (exp (f 0) * (d1 ^ 2 + d2)) with ((exp (f 0) * Derive f 0) * Derive f 0 + exp (f 0) * d2) by (rewrite D0; ring).
      apply (is_derive_mult (fun t => exp (f t)) (Derive f) 0 (exp (f 0) * Derive f 0) d2); [apply E; exists d1; assumption|assumption|].
      intros; apply Rmult_comm.
Qed.

Definition hydrogen_psi (x : positions) : R := exp (- distance 3 (x O) (fun _ => 0)).

Lemma hydrogen_norm y : distance 3 (y O) (fun _ => 0) = compute_soft_norm 3 (compute_displacements y (fun _ _ => 0) O O) 0.
Proof. rewrite soft_norm_disp, soft_distance_0. reflexivity. Qed.

Lemma hydrogen_line_C2 x c : (c < 3)%nat -> distance 3 (x O) (fun _ => 0) <> 0 ->
  C2 (fun t => - distance 3 (move x O c t O) (fun _ => 0))
     (- (x O c / distance 3 (x O) (fun _ => 0))) (- (1 / distance 3 (x O) (fun _ => 0) - x O c ^ 2 / distance 3 (x O) (fun _ => 0) ^ 3)).
Proof.
  intros Hc Hr. set (u := compute_displacements x (fun _ _ => 0) O O).
  assert (N : compute_soft_norm 3 u 0 = distance 3 (x O) (fun _ => 0)) by (symmetry; apply hydrogen_norm).
  pose proof (norm_C2 3 u 0 c 1 Hc) as H. rewrite N in H. specialize (H Hr).
  apply (C2_ext (fun t => - (1) * compute_soft_norm 3 (shifted u c 1 t) 0)).
  - intros t. rewrite hydrogen_norm. replace (- (1) * compute_soft_norm 3 (shifted u c 1 t) 0) with (- compute_soft_norm 3 (shifted u c 1 t) 0) by ring.
    do 2 f_equal. apply functional_extensionality. intros k. unfold shifted, u, compute_displacements, move. cbn [Nat.eqb andb].
    destruct (Nat.eqb k c); ring.
  - assert (Eu : u c = x O c) by (unfold u, compute_displacements; ring). rewrite Eu in H.
    apply (C2_scal (- (1))) in H. revert H. apply C2_eq; field; assumption.
Qed.

Lemma hydrogen_reads : reads 1 3 hydrogen_psi.
Proof.
  intros x y E. unfold hydrogen_psi, distance. do 3 f_equal. apply Rsum_ext. intros c Hc. rewrite E by lia. reflexivity.
Qed.

Lemma hydrogen_smooth x : distance 3 (x O) (fun _ => 0) <> 0 -> smooth_at 1 3 hydrogen_psi x.
Proof.
  intros Hr i c Hi Hc. assert (i = O) as -> by lia.
  destruct (C2_exp _ _ _ (hydrogen_line_C2 x c Hc Hr)) as (A & B & C). split; [exact B|]. eexists. exact C.
Qed.

Lemma hydrogen_ln x : ln (Rabs (hydrogen_psi x)) = - distance 3 (x O) (fun _ => 0).
Proof. unfold hydrogen_psi. rewrite Rabs_pos_eq by (left; apply exp_pos). apply ln_exp. Qed.

Lemma hydrogen_no_coincidence (sft : R) (y : positions) : no_coincidence 3 sft 1 y.
Proof. intros i j Hi Hj Hne. lia. Qed.
Lemma hydrogen_no_ion x : distance 3 (x O) (fun _ => 0) <> 0 -> no_ion_coincidence 3 0 1 1 x (fun _ _ => 0).
Proof. intros H i j Hi Hj. assert (i = O) as -> by lia. rewrite soft_distance_0. exact H. Qed.

Lemma hydrogen_laplacian x : distance 3 (x O) (fun _ => 0) <> 0 ->
  sum_coordinates 1 3 (second_partial hydrogen_psi x) = (1 - 2 / distance 3 (x O) (fun _ => 0)) * hydrogen_psi x.
Proof.
  intros Hr. unfold sum_coordinates. cbn [Rsum].
  assert (S2 : forall c, (c < 3)%nat -> second_partial hydrogen_psi x O c =
     hydrogen_psi x * ((x O c / distance 3 (x O) (fun _ => 0)) ^ 2 - (1 / distance 3 (x O) (fun _ => 0) - x O c ^ 2 / distance 3 (x O) (fun _ => 0) ^ 3))).
  { intros c Hc. destruct (C2_exp _ _ _ (hydrogen_line_C2 x c Hc Hr)) as (A & B & C).
    unfold second_partial. cbn [Derive_n]. transitivity (Derive (Derive (fun t => exp (- distance 3 (move x O c t O) (fun _ => 0)))) 0).
    - apply Derive_ext. intros t. apply Derive_ext. intros u. reflexivity.
    - rewrite (is_derive_unique _ _ _ C). rewrite move_0. fold (hydrogen_psi x). ring. }
  rewrite !S2 by lia. set (r := distance 3 (x O) (fun _ => 0)) in *.
  assert (Q : x O 0%nat ^ 2 + x O 1%nat ^ 2 + x O 2%nat ^ 2 = r ^ 2).
  { unfold r, distance. rewrite pow2_sqrt.
    - cbn [Rsum]. ring.
    - apply Rsum_nonneg. intros. apply pow2_ge_0. }
  replace (0 + (0 + hydrogen_psi x * ((x O 0%nat / r) ^ 2 - (1 / r - x O 0%nat ^ 2 / r ^ 3)) + hydrogen_psi x * ((x O 1%nat / r) ^ 2 - (1 / r - x O 1%nat ^ 2 / r ^ 3)) +
    hydrogen_psi x * ((x O 2%nat / r) ^ 2 - (1 / r - x O 2%nat ^ 2 / r ^ 3))))
    with (hydrogen_psi x * ((x O 0%nat ^ 2 + x O 1%nat ^ 2 + x O 2%nat ^ 2) / r ^ 2 - 3 / r + (x O 0%nat ^ 2 + x O 1%nat ^ 2 + x O 2%nat ^ 2) / r ^ 3)) by (field; assumption).
  rewrite Q. field. assumption.
Qed.

Lemma hydrogen_eigen x : distance 3 (x O) (fun _ => 0) <> 0 ->
  hamiltonian 3 1 (fun _ _ => 0) (fun _ => 1) 0 0 1 hydrogen_psi x = - (1 / 2) * hydrogen_psi x.
Proof.
  intros Hr. unfold hamiltonian, coulomb. rewrite hydrogen_laplacian by assumption. unfold unordered_pairs. cbn [seq flat_map map app Nat.sub lsum fold_right Rsum].
  rewrite soft_distance_0. unfold lsum. simpl fold_right. change (fun _ : nat => 0) with (fun _ : nat => 0). field. exact Hr.
Qed.

(** Integrating only the kinetic energy by parts. *)
Lemma hydrogen_ibp x : distance 3 (x O) (fun _ => 0) <> 0 ->
  ibp_local_energy (fun y => ln (Rabs (hydrogen_psi y))) 3 1 (fun _ _ => 0) (fun _ => 1) true false 0 false 0 1 x =
  Some (Fin (1 / 2 - 1 / distance 3 (x O) (fun _ => 0))).
Proof.
  intros Hr. unfold ibp_local_energy.
  rewrite ei_real by (apply hydrogen_no_ion; assumption). rewrite ee_real, ii_real by apply hydrogen_no_coincidence.
  cbn [oadd xadd]. do 2 f_equal. unfold ibp_energy_term, ibp_grad_U. unfold unordered_pairs. cbn [seq flat_map map app Nat.sub Rsum]. unfold lsum. simpl fold_right.
  assert (G : forall c, (c < 3)%nat -> grad_x (fun y => ln (Rabs (hydrogen_psi y))) x O c = - (x O c / distance 3 (x O) (fun _ => 0))).
  { intros c Hc. unfold grad_x. destruct (hydrogen_line_C2 x c Hc Hr) as (A & _). rewrite <- (is_derive_unique _ _ _ A).
    apply Derive_ext. intros t. apply hydrogen_ln. }
  rewrite !G by lia. rewrite soft_distance_0. set (r := distance 3 (x O) (fun _ => 0)) in *.
  assert (Q : x O 0%nat ^ 2 + x O 1%nat ^ 2 + x O 2%nat ^ 2 = r ^ 2).
  { unfold r, distance. rewrite pow2_sqrt.
    - cbn [Rsum]. ring.
    - apply Rsum_nonneg. intros. apply pow2_ge_0. }
  transitivity (1 / 2 * ((x O 0%nat ^ 2 + x O 1%nat ^ 2 + x O 2%nat ^ 2) / r ^ 2) - 1 / r); [|rewrite Q]; field; assumption.
Qed.
