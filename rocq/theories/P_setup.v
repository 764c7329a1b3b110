(** * Proofs about the configured local energy *)
From Coq Require Import Reals String List Arith Bool Lra Lia Permutation FunctionalExtensionality.
From Coquelicot Require Import Coquelicot.
From Verif Require Import XReal Rsum Det M_stats M_distribute M_energy M_physics M_setup S_energy S_physics S_setup
  P_distribute P_stats P_unbiased P_xsum P_orders P_kinetic P_potential P_ibp P_spin P_energy P_grad P_slog T_physics.
Import ListNotations.
Local Open Scope R_scope.

Lemma soft_distance_0 d a b : soft_distance d 0 a b = distance d a b.
Proof.
  unfold soft_distance. replace (distance d a b ^ 2 + 0 ^ 2) with (distance d a b ^ 2) by ring. apply sqrt_pow2. apply distance_nonneg.
Qed.

Lemma ii_real d nion locs Z n x : no_coincidence d 0 nion locs -> ion_ion_potential d nion locs Z n x =
  Some (Fin (lsum (map (fun ij => Z (fst ij) * Z (snd ij) / distance d (locs (fst ij)) (locs (snd ij))) (unordered_pairs nion)))).
Proof.
  intros H. rewrite ii_eq, triu_pairs. f_equal.
  rewrite (map_ext_in _ (fun ij => Fin (Z (fst ij) * Z (snd ij) / distance d (locs (fst ij)) (locs (snd ij))))).
  - rewrite <- (map_map (fun ij => Z (fst ij) * Z (snd ij) / distance d (locs (fst ij)) (locs (snd ij))) Fin). apply xsum_fin.
  - intros (i, j) Hij. apply in_unordered_pairs in Hij. cbn [fst snd]. unfold ion_term. rewrite xdiv_fin.
    + rewrite soft_distance_0. reflexivity.
    + apply H; lia.
Qed.

Lemma ee_real d s n x : no_coincidence d s n x -> electron_electron_potential d 1 s None n x =
  Some (Fin (lsum (map (fun ij => 1 / soft_distance d s (x (fst ij)) (x (snd ij))) (unordered_pairs n)))).
Proof.
  intros H. rewrite (proj1 (C35_each_pair_once d 1 s n x)). f_equal.
  rewrite (map_ext_in _ (fun ij => Fin (1 / soft_distance d s (x (fst ij)) (x (snd ij))))).
  - rewrite <- (map_map (fun ij => 1 / soft_distance d s (x (fst ij)) (x (snd ij))) Fin). apply xsum_fin.
  - intros (i, j) Hij. apply in_unordered_pairs in Hij. cbn [fst snd]. rewrite xdiv_fin; [reflexivity|]. apply H; lia.
Qed.

Lemma standard_value d nion locs Z sei see n x (psi : positions -> R) :
  reads n d psi -> psi x <> 0 -> smooth_at n d psi x ->
  no_ion_coincidence d sei n nion x locs -> no_coincidence d see n x -> no_coincidence d 0 nion locs ->
  molecular_local_energy (fun y => ln (Rabs (psi y))) d nion locs Z sei see n x =
  Some (Fin (hamiltonian d nion locs Z sei see n psi x / psi x)).
Proof.
  intros HR H0 HS HI HC HII. unfold molecular_local_energy. rewrite C33_kinetic_energy by assumption.
  rewrite ei_real, ee_real, ii_real by assumption. cbn [option_map oadd xadd]. do 2 f_equal.
  unfold hamiltonian, coulomb. field. assumption.
Qed.

(** With no integration by parts at all the value is the standard one. *)
Lemma ibp_nothing d nion locs Z sei see n x (f : positions -> R) :
  ibp_local_energy f d nion locs Z false false sei false see n x = molecular_local_energy f d nion locs Z sei see n x.
Proof.
  unfold ibp_local_energy, molecular_local_energy.
  replace (ibp_energy_term f d nion locs Z false false sei false see n x) with 0.
  - destruct (option_map Fin (laplacian_kinetic_energy f n d x)) as [k|], (electron_ion_potential d nion locs Z 1 sei None n x) as [a|],
      (electron_electron_potential d 1 see None n x) as [b|], (ion_ion_potential d nion locs Z n x) as [c|]; try reflexivity.
    cbn [oadd]. f_equal. rewrite xadd_0_l. rewrite <- !xadd_assoc, (xadd_comm c), <- !xadd_assoc. reflexivity.
  - unfold ibp_energy_term, ibp_grad_U. rewrite (Rsum_eq_0 n); [ring|]. intros i _. apply Rsum_eq_0. intros c _. ring.
Qed.

Lemma kinetic_all np f x sg : reads np 3 f -> (0 < np)%nat -> renumbering np sg ->
  random_particle_kinetic_energy f np np 3 x sg = laplacian_kinetic_energy f np 3 x.
Proof.
  intros HR Hn Hsg. unfold laplacian_kinetic_energy. rewrite laplacian_full by assumption. cbn [option_map].
  set (h := fun a => Rsum 3 (fun c => Derive (line f x a c) 0 ^ 2 + Derive (Derive (line f x a c)) 0)).
  unfold random_particle_kinetic_energy, laplacian_psi_over_psi. destruct np as [|k]; [lia|]. set (np := S k) in *. cbn [option_map]. f_equal.
  change (Rsum np (fun i => Rsum 3 (fun c => Derive (line f x i c) 0 ^ 2 + Derive (Derive (line f x i c)) 0))) with (Rsum np h).
  rewrite <- (Rsum_renumber np sg h Hsg). replace (3 * np)%nat with (np * 3)%nat at 1 by lia. rewrite Rsum_flat.
  rewrite (Rsum_ext np _ (fun i => h (sg i))).
  - replace (3 * np)%nat with (np * 3)%nat by lia. pose proof (INR_pos (np * 3) ltac:(lia)). field. lra.
  - intros i Hi. unfold h. apply Rsum_ext. intros c Hc.
    assert (Hb : (i * 3 + c < np * 3)%nat) by nia.
    replace (Nat.min (i * 3 + c) (np * 3 - 1)) with (i * 3 + c)%nat by lia.
    destruct (divmod_flat 3 i c Hc) as [-> ->].
    apply (scan_term np 3 f x (sg i) c HR); [|assumption]. apply (renumbering_bound np sg Hsg). lia.
Qed.

Lemma random_particle_all nion locs Z bk bei bee sei see n x f sg : reads n 3 f -> (0 < n)%nat -> renumbering n sg ->
  no_ion_coincidence 3 sei n nion x locs -> no_coincidence 3 see n x ->
  random_particle_local_energy f 3 nion locs Z n bk bei bee sei see n x sg = molecular_local_energy f 3 nion locs Z sei see n x.
Proof.
  intros HR Hn Hsg HI HC. unfold random_particle_local_energy, molecular_local_energy.
  assert (HIs : no_ion_coincidence 3 sei n nion (fun i => x (sg i)) locs).
  { intros i j Hi Hj. apply HI; [apply (renumbering_bound n sg Hsg); assumption|assumption]. }
  pose proof (no_coincidence_renumber 3 see n x sg Hsg HC) as HCs.
  destruct (C35_all_particles 3 nion locs Z 1 see n (fun i => x (sg i)) Hn) as [EE _].
  destruct (C35_all_particles 3 nion locs Z 1 sei n (fun i => x (sg i)) Hn) as [_ EI].
  assert (K : (if bk then random_particle_kinetic_energy f n n 3 x sg else laplacian_kinetic_energy f n 3 x) = laplacian_kinetic_energy f n 3 x).
  { destruct bk; [apply kinetic_all; assumption|reflexivity]. }
  assert (A : electron_ion_potential 3 nion locs Z 1 sei (if bei then Some n else None) n (fun i => x (sg i)) = electron_ion_potential 3 nion locs Z 1 sei None n x).
  { transitivity (electron_ion_potential 3 nion locs Z 1 sei None n (fun i => x (sg i))); [destruct bei; [apply EI; assumption|reflexivity]|].
    apply ei_renumber. assumption. }
  assert (B : electron_electron_potential 3 1 see (if bee then Some n else None) n (fun i => x (sg i)) = electron_electron_potential 3 1 see None n x).
  { transitivity (electron_electron_potential 3 1 see None n (fun i => x (sg i))); [destruct bee; [apply EE; assumption|reflexivity]|].
    apply ee_renumber. assumption. }
  rewrite K, A, B. rewrite !ii_eq.
  destruct (option_map Fin (laplacian_kinetic_energy f n 3 x)) as [k|], (electron_ion_potential 3 nion locs Z 1 sei None n x) as [a|],
      (electron_electron_potential 3 1 see None n x) as [b|]; try reflexivity.
  cbn [oadd]. f_equal. set (w := xsum2 _ _ _). rewrite <- !xadd_assoc. f_equal. rewrite xadd_comm, <- xadd_assoc. reflexivity.
Qed.

(** Nothing sampled. *)
Lemma random_particle_none d nion locs Z k sei see n x f sg : renumbering n sg ->
  random_particle_local_energy f d nion locs Z k false false false sei see n x sg = molecular_local_energy f d nion locs Z sei see n x.
Proof.
  intros Hsg. unfold random_particle_local_energy, molecular_local_energy. rewrite ei_renumber, ee_renumber, !ii_eq by assumption.
  destruct (option_map Fin (laplacian_kinetic_energy f n d x)) as [a0|], (electron_ion_potential d nion locs Z 1 sei None n x) as [a|],
      (electron_electron_potential d 1 see None n x) as [b|]; try reflexivity.
  cbn [oadd]. f_equal. set (w := xsum2 _ _ _). rewrite <- !xadd_assoc. f_equal. rewrite xadd_comm, <- xadd_assoc. reflexivity.
Qed.

Lemma ibp_U_cone d nion locs Z (bei : bool) sei (bee : bool) see n : (bei = true -> sei = 0) -> (bee = true -> see = 0) ->
  ibp_U d nion locs Z bei sei bee see n = cone d nion locs Z bei bee n.
Proof.
  intros H1 H2. apply functional_extensionality. intros x. unfold ibp_U, cone. rewrite Rplus_0_l. f_equal.
  - destruct bei; [|reflexivity]. rewrite H1 by reflexivity. f_equal. apply Rsum_ext. intros i _. apply Rsum_ext. intros j _.
    rewrite soft_norm_disp, soft_distance_0. field.
  - destruct bee; [|reflexivity]. rewrite H2 by reflexivity.
    rewrite (pairs_lsum n (fun i j => distance d (x i) (x j) / 4)). apply Rsum_ext. intros i _. apply Rsum_ext. intros j _.
    rewrite soft_norm_disp, soft_distance_0. reflexivity.
Qed.

(** ** When tracing raises *)
Lemma laplacian_traces g np d x s : laplacian_psi_over_psi g np d x s = None <-> exists perm, s = Some (O, perm).
Proof.
  unfold laplacian_psi_over_psi. destruct s as [[[|k] perm]|]; split; try discriminate; try (intros [? ?]; discriminate); eauto.
Qed.
Lemma ei_traces d nion locs Z g s np n x : electron_ion_potential d nion locs Z g s np n x = None <-> np = Some O.
Proof. unfold electron_ion_potential. destruct np as [[|k]|]; split; congruence. Qed.
Lemma ee_traces d g s np n x : electron_electron_potential d g s np n x = None <-> np = Some O.
Proof. unfold electron_electron_potential. destruct np as [[|k]|]; split; congruence. Qed.

Lemma oadd_none a b : oadd a b = None <-> a = None \/ b = None.
Proof. destruct a, b; cbn; split; auto; try discriminate; intros [|]; congruence. Qed.

Lemma option_map_none {A B} (f : A -> B) o : option_map f o = None <-> o = None.
Proof. destruct o; cbn; split; congruence. Qed.

Lemma molecular_traces f d nion locs Z sei see n x : molecular_local_energy f d nion locs Z sei see n x <> None.
Proof.
  unfold molecular_local_energy, laplacian_kinetic_energy. rewrite !oadd_none, !option_map_none, ei_traces, ee_traces, laplacian_traces, ii_eq.
  intros [[[[? H]|H]|H]|H]; discriminate.
Qed.

Lemma ibp_traces f d nion locs Z bk bei sei bee see n x : ibp_local_energy f d nion locs Z bk bei sei bee see n x <> None.
Proof.
  unfold ibp_local_energy, laplacian_kinetic_energy. rewrite !ii_eq.
  assert (L : option_map Fin (option_map (Rmult (- (1 / 2))) (laplacian_psi_over_psi (grad_x f) n d x None)) <> None).
  { rewrite !option_map_none, laplacian_traces. intros [? ?]; discriminate. }
  assert (A : electron_ion_potential d nion locs Z 1 sei None n x <> None) by (rewrite ei_traces; discriminate).
  assert (B : electron_electron_potential d 1 see None n x <> None) by (rewrite ee_traces; discriminate).
  destruct bk, bei, bee; rewrite ?oadd_none; intuition discriminate.
Qed.

Lemma random_traces f d nion locs Z k bk bei bee sei see n x perm :
  random_particle_local_energy f d nion locs Z k bk bei bee sei see n x perm = None <-> k = O /\ (bk || bei || bee)%bool = true.
Proof.
  unfold random_particle_local_energy. rewrite !oadd_none, option_map_none, ei_traces, ee_traces, ii_eq. destruct bk; cbn [orb].
  - unfold random_particle_kinetic_energy. rewrite option_map_none, laplacian_traces. split.
    + intros [[[[? H]|H]|H]|H]; [injection H as -> _; auto|discriminate|destruct bei; [injection H as ->; auto|discriminate]|destruct bee; [injection H as ->; auto|discriminate]].
    + intros [-> _]. left. left. left. eauto.
  - unfold laplacian_kinetic_energy. rewrite option_map_none, laplacian_traces. split.
    + intros [[[[? H]|H]|H]|H]; [discriminate|discriminate|destruct bei; [injection H as ->; auto|discriminate]|
        destruct bee; [injection H as ->; split; [reflexivity|destruct bei; reflexivity]|discriminate]].
    + intros [-> H]. destruct bei; [left; right; reflexivity|]. destruct bee; [right; reflexivity|discriminate].
Qed.

(** ** Constant local energies *)
Lemma lmean_const (l : list R) e : l <> [] -> (forall v, In v l -> v = e) -> lmean l = e.
Proof.
  intros Hl H. unfold lmean. rewrite <- (map_id l) at 1. rewrite (map_ext_in _ (fun _ => e) l H), lsum_map_const.
  assert (0 < length l)%nat by (destruct l; [congruence|simpl; lia]). pose proof (INR_pos (length l) ltac:(lia)). field. lra.
Qed.

Lemma lvar_const (l : list R) e : (2 <= length l)%nat -> (forall v, In v l -> v = e) -> lvar l = 0.
Proof.
  intros Hl H. apply lvar_zero_iff; [assumption|]. intros x y Hx Hy. rewrite (H x Hx), (H y Hy). reflexivity.
Qed.

Lemma lcov_const (l l' : list R) e : l <> [] -> (forall v, In v l -> v = e) -> lcov l l' = 0.
Proof.
  intros Hl H. unfold lcov. rewrite (map_ext_in _ (fun _ => 0)).
  - rewrite lsum_map_const. unfold Rdiv. ring.
  - intros (a, b) Hab. apply in_combine_l in Hab. cbn [fst snd]. rewrite (lmean_const l e Hl H), (H a Hab). ring.
Qed.

Lemma rmedian_const (l : list R) e : l <> [] -> (forall v, In v l -> v = e) -> rmedian l = e.
Proof.
  intros Hl H. pose proof (rmedian_between l Hl) as B. cbv zeta in B.
  assert (HL : (0 < length (rsort l))%nat).
  { rewrite <- (Permutation_length (rsort_perm l)). destruct l; [congruence|simpl; lia]. }
  assert (N : forall i, (i < length (rsort l))%nat -> nth i (rsort l) 0 = e).
  { intros i Hi. apply H. apply (Permutation_in _ (Permutation_sym (rsort_perm l))). apply nth_In. assumption. }
  rewrite !N in B; [lra|apply Nat.div_lt; lia|apply Nat.div_lt_upper_bound; lia].
Qed.

Lemma clip_const th cc e0 (s : list R) e : s <> [] -> centre_ok cc = true -> e0 = e -> (forall v, In v s -> v = e) -> clips (get_clipping_fn th cc) e0 s s.
Proof.
  intros Hs Hc -> H. split; [reflexivity|]. unfold get_clipping_fn. destruct (Rltb 0 th) eqn:Eth; [|reflexivity].
  rewrite (clip_fn_fin th cc s e Hs Hc). f_equal. f_equal. apply clip_list_big. intros v Hv.
  assert (C : centre_of cc e s = e).
  { unfold centre_of. destruct (String.eqb cc "mean"); [reflexivity|]. apply (rmedian_const s e Hs H). }
  rewrite C, (H v Hv). replace (e - e) with 0 by ring. rewrite Rabs_R0. apply Rmult_le_pos.
  - apply Rltb_true in Eth. lra.
  - unfold mean_distance. rewrite (lmean_const _ 0).
    + lra.
    + destruct s; [congruence|discriminate].
    + intros w Hw. apply in_map_iff in Hw. destruct Hw as (u & <- & Hu). rewrite (H u Hu). replace (e - e) with 0 by ring. apply Rabs_R0.
Qed.
