(** * Local energies look at the coordinates of the electrons and ions there are, and at nothing else *)
From Coq Require Import Reals String List Arith Bool Lra Lia Permutation FunctionalExtensionality.
From Coquelicot Require Import Coquelicot.
From Verif Require Import XReal Rsum Det M_stats M_distribute M_energy M_physics M_setup S_perm S_energy S_physics S_setup
  P_distribute P_stats P_unbiased P_xsum P_orders P_kinetic P_potential P_ibp P_setup P_setup2.
Import ListNotations.
Local Open Scope R_scope.

Definition agree (n d : nat) (x y : positions) : Prop := forall i c, (i < n)%nat -> (c < d)%nat -> x i c = y i c.

Lemma soft_norm_ext d u u' s : (forall c, (c < d)%nat -> u c = u' c) -> compute_soft_norm d u s = compute_soft_norm d u' s.
Proof. intros H. unfold compute_soft_norm. do 2 f_equal. apply Rsum_ext. intros c Hc. rewrite (H c Hc). reflexivity. Qed.
Lemma ei_ext d nion locs locs' Z g s np n x x' : agree n d x x' -> agree nion d locs locs' ->
  electron_ion_potential d nion locs Z g s np n x = electron_ion_potential d nion locs' Z g s np n x'.
Proof.
  intros A B. unfold electron_ion_potential. destruct np as [[|k]|]; [reflexivity| |]; f_equal; f_equal; f_equal; apply xsum2_ext;
    intros i j Hi Hj; do 2 f_equal; apply soft_norm_ext; intros c Hc; unfold compute_displacements; rewrite (A i c), (B j c) by lia; reflexivity.
Qed.
Lemma ee_ext d g s np n x x' : agree n d x x' -> electron_electron_potential d g s np n x = electron_electron_potential d g s np n x'.
Proof.
  intros A.
  assert (E : forall i j, (i < n)%nat -> (j < n)%nat -> compute_soft_norm d (compute_displacements x x i j) s = compute_soft_norm d (compute_displacements x' x' i j) s).
  { intros i j Hi Hj. apply soft_norm_ext. intros c Hc. unfold compute_displacements. rewrite (A i c), (A j c) by lia. reflexivity. }
  unfold electron_electron_potential. destruct np as [[|k]|]; [reflexivity| |]; f_equal; [f_equal; f_equal|]; apply xsum2_ext; intros i j Hi Hj; unfold triu1, tril1; rewrite E by lia; reflexivity.
Qed.
Lemma ii_ext d nion locs locs' Z n n' x x' : agree nion d locs locs' -> ion_ion_potential d nion locs Z n x = ion_ion_potential d nion locs' Z n' x'.
Proof.
  intros B. unfold ion_ion_potential. f_equal. apply xsum2_ext. intros i j Hi Hj. unfold triu1. destruct (Nat.ltb i j); [|reflexivity]. do 2 f_equal. apply soft_norm_ext. intros c Hc.
  unfold compute_displacements. rewrite (B i c), (B j c) by lia. reflexivity.
Qed.
Lemma grad_U_ext d nion locs locs' Z bei sei bee see n x x' a c : agree n d x x' -> agree nion d locs locs' -> (a < n)%nat -> (c < d)%nat ->
  ibp_grad_U d nion locs Z bei sei bee see n x a c = ibp_grad_U d nion locs' Z bei sei bee see n x' a c.
Proof.
  intros A B Ha Hc.
  assert (EI : forall j, (j < nion)%nat -> unit_back d (compute_displacements x locs a j) sei c = unit_back d (compute_displacements x' locs' a j) sei c).
  { intros j Hj. unfold unit_back. rewrite (soft_norm_ext d (compute_displacements x locs a j) (compute_displacements x' locs' a j)).
    - unfold compute_displacements at 2 4. rewrite (A a c), (B j c) by assumption. reflexivity.
    - intros c' Hc'. unfold compute_displacements. rewrite (A a c'), (B j c') by assumption. reflexivity. }
  assert (EE : forall j, (j < n)%nat -> unit_back d (compute_displacements x x a j) see c = unit_back d (compute_displacements x' x' a j) see c).
  { intros j Hj. unfold unit_back. rewrite (soft_norm_ext d (compute_displacements x x a j) (compute_displacements x' x' a j)).
    - unfold compute_displacements at 2 4. rewrite (A a c), (A j c) by assumption. reflexivity.
    - intros c' Hc'. unfold compute_displacements. rewrite (A a c'), (A j c') by assumption. reflexivity. }
  rewrite !grad_U_pairs. f_equal; [destruct bei; [|reflexivity]|destruct bee; [|reflexivity]]; apply Rsum_ext; intros j Hj; [rewrite EI by assumption; reflexivity|].
  destruct (Nat.eqb a j); [reflexivity|]. rewrite EE by assumption. reflexivity.
Qed.

Section Kinetic.
Variables (n d : nat) (f : positions -> R).
Hypothesis HR : reads n d f.
Lemma line_ext_x x x' i c : agree n d x x' -> line f x i c = line f x' i c.
Proof.
  intros A. apply functional_extensionality. intros t. unfold line. apply HR. intros i' c' Hi Hc. unfold move. rewrite (A i' c') by assumption. reflexivity.
Qed.
Lemma kinetic_ext x x' : agree n d x x' -> laplacian_kinetic_energy f n d x = laplacian_kinetic_energy f n d x'.
Proof.
  intros A. unfold laplacian_kinetic_energy. rewrite !laplacian_full by assumption. cbn [option_map]. do 2 f_equal. apply Rsum_ext. intros i _. apply Rsum_ext. intros c _.
  rewrite (line_ext_x x x') by assumption. reflexivity.
Qed.
Lemma sampled_kinetic_ext k x x' perm : renumbering n perm -> agree n d x x' -> random_particle_kinetic_energy f k n d x perm = random_particle_kinetic_energy f k n d x' perm.
Proof.
  intros Hp A. unfold random_particle_kinetic_energy, laplacian_psi_over_psi. destruct k as [|k]; [reflexivity|]. cbn [option_map]. do 3 f_equal.
  destruct (Nat.eq_dec (n * d) 0) as [E|E].
  { rewrite E. apply Rsum_ext. intros i _. reflexivity. }
  apply Rsum_ext. intros i Hi. set (r := Nat.min i (n * d - 1)). assert (Hr : (r < n * d)%nat) by (unfold r; lia).
  assert (Hd : (0 < d)%nat) by (destruct d; lia).
  assert (Hq : (r / d < n)%nat) by (apply Nat.div_lt_upper_bound; lia).
  assert (Hm : (r mod d < d)%nat) by (apply Nat.mod_upper_bound; lia).
  pose proof (renumbering_bound n perm Hp _ Hq) as Hb.
  pose proof (scan_term n d f x (perm (r / d)%nat) (r mod d)%nat HR Hb Hm) as T1.
  pose proof (scan_term n d f x' (perm (r / d)%nat) (r mod d)%nat HR Hb Hm) as T2. cbv zeta in T1, T2.
  rewrite (line_ext_x x x') in T1 by assumption. rewrite <- T2 in T1. exact T1.
Qed.
End Kinetic.

(** The energies a job can be configured with, at electrons and ions that agree where there are electrons and ions. *)
Lemma local_energy_ext m locs' c f x x' : reads (mol_nelec m) (mol_d m) f -> agree (mol_nelec m) (mol_d m) x x' -> agree (mol_nion m) (mol_d m) (mol_locs m) locs' ->
  match assemble_mol_local_energy_fn m c f,
        assemble_mol_local_energy_fn {| mol_d := mol_d m; mol_nion := mol_nion m; mol_nelec := mol_nelec m; mol_locs := locs'; mol_charges := mol_charges m;
                                        mol_ei_softening := mol_ei_softening m; mol_ee_softening := mol_ee_softening m |} c f with
  | Some (Plain e), Some (Plain e') => e x = e' x'
  | Some (Keyed e), Some (Keyed e') => forall perm, renumbering (mol_nelec m) perm -> e x perm = e' x' perm
  | None, None => True
  | _, _ => False
  end.
Proof.
  intros HR A B. unfold assemble_mol_local_energy_fn. cbn [mol_d mol_nion mol_locs mol_charges mol_ei_softening mol_ee_softening mol_nelec].
  destruct (String.eqb _ "standard").
  { unfold molecular_local_energy. rewrite (kinetic_ext _ _ _ HR x x' A), (ei_ext _ _ _ locs' _ _ _ _ _ _ x' A B), (ee_ext _ _ _ _ _ _ x' A), (ii_ext _ _ _ locs' _ _ (mol_nelec m) _ x' B). reflexivity. }
  destruct (String.eqb _ "ibp").
  { unfold ibp_local_energy. rewrite (kinetic_ext _ _ _ HR x x' A), (ei_ext _ _ _ locs' _ _ _ _ _ _ x' A B), (ee_ext _ _ _ _ _ _ x' A), (ii_ext _ _ _ locs' _ _ (mol_nelec m) _ x' B).
    match goal with |- context [ibp_energy_term ?a ?b ?e ?g ?h ?i ?j ?k ?l ?o ?p x] => replace (ibp_energy_term a b e g h i j k l o p x) with (ibp_energy_term a b e locs' h i j k l o p x') end; [reflexivity|].
    unfold ibp_energy_term. f_equal; [f_equal|match goal with |- (if ?b then _ else _) = _ => destruct b; [f_equal|reflexivity] end].
    - apply Rsum_ext. intros i Hi. apply Rsum_ext. intros k Hk. rewrite !grad_x_line, (line_ext_x _ _ _ HR x x') by assumption. f_equal. symmetry. apply grad_U_ext; assumption.
    - apply Rsum_ext. intros i Hi. apply Rsum_ext. intros k Hk. rewrite !grad_x_line, (line_ext_x _ _ _ HR x x') by assumption. reflexivity. }
  destruct (String.eqb _ "random_particle"); [|exact Logic.I]. intros perm Hp. unfold random_particle_local_energy.
  assert (A' : agree (mol_nelec m) (mol_d m) (fun i => x (perm i)) (fun i => x' (perm i))) by (intros i k Hi Hk; apply A; [apply (renumbering_bound _ _ Hp); exact Hi|exact Hk]).
  rewrite (ei_ext _ _ _ locs' _ _ _ _ _ _ _ A' B), (ee_ext _ _ _ _ _ _ _ A'), (ii_ext _ _ _ locs' _ _ (mol_nelec m) _ (fun i => x' (perm i)) B). do 4 f_equal.
  destruct (part_in _ _); [apply sampled_kinetic_ext; assumption|apply kinetic_ext; assumption].
Qed.
