(** * Properties C33-C41: kinetic energy, potentials, integration by parts, example systems, spin *)
From Coq Require Import Reals List Arith Bool Lra Lia Permutation FunctionalExtensionality.
From Coquelicot Require Import Coquelicot.
From Verif Require Import XReal Rsum Det M_stats M_distribute M_energy M_physics S_energy S_physics P_distribute P_stats P_unbiased P_xsum P_orders P_kinetic P_potential P_ibp P_hermite P_spin.
Import ListNotations.
Local Open Scope R_scope.

(** ** C33 *)
Theorem C33_kinetic_energy : forall np d (psi : positions -> R) x, reads np d psi -> psi x <> 0 -> smooth_at np d psi x ->
  laplacian_kinetic_energy (fun y => ln (Rabs (psi y))) np d x =
  Some (- (1 / 2) * (sum_coordinates np d (second_partial psi x) / psi x)).
Proof.
  intros np d psi x HR H0 HS.
  apply (kinetic_of_psi np d (fun y => ln (Rabs (psi y))) psi x); [intros y z E; rewrite (HR y z E); reflexivity|assumption|].
  intros i c Hi Hc. split; [apply filter_forall; reflexivity|]. exact (HS i c Hi Hc).
Qed.
Print Assumptions C33_kinetic_energy.

(** psi(x) = x_00^2 + 1 for one particle in three dimensions. *)
Example C33_example : let psi := fun x : positions => x O O ^ 2 + 1 in let x := fun _ _ => 2 in
  reads 1 3 psi /\ psi x <> 0 /\ smooth_at 1 3 psi x /\ sum_coordinates 1 3 (second_partial psi x) = 2.
Proof.
  intros psi x.
  assert (L : forall t, psi (displaced x O O t) = (2 + t) ^ 2 + 1) by reflexivity.
  assert (L' : forall c t, (0 < c)%nat -> psi (displaced x O c t) = 2 ^ 2 + 1) by (intros [|c] t Hc; [lia|reflexivity]).
  assert (D0 : forall t, is_derive (fun t => psi (displaced x O O t)) t (2 * (2 + t))).
  { intros t. apply (is_derive_ext (fun t => (2 + t) ^ 2 + 1)); [intros; symmetry; apply L|]. auto_derive; [trivial|ring]. }
  assert (D1 : forall c t, (0 < c)%nat -> is_derive (fun t => psi (displaced x O c t)) t 0).
  { intros c t Hc. apply (is_derive_ext (fun t => 2 ^ 2 + 1)); [intros; symmetry; apply L'; exact Hc|]. apply is_derive_constR. }
  assert (E0 : is_derive (Derive (fun t => psi (displaced x O O t))) 0 2).
  { apply (is_derive_ext (fun t => 2 * (2 + t))); [intros t; symmetry; apply is_derive_unique, D0|]. auto_derive; [trivial|ring]. }
  assert (E1 : forall c, (0 < c)%nat -> is_derive (Derive (fun t => psi (displaced x O c t))) 0 0).
  { intros c Hc. apply (is_derive_ext (fun t => 0)); [intros t; symmetry; apply is_derive_unique, D1; exact Hc|]. apply is_derive_constR. }
  split; [|split; [|split]].
  - intros y z E. unfold psi. rewrite E by lia. reflexivity.
  - unfold psi, x. lra.
  - intros i c Hi Hc. replace i with O by lia. destruct c as [|c].
    + split; [apply filter_forall; intros t; eexists; apply D0|eexists; apply E0].
    + split; [apply filter_forall; intros t; eexists; apply D1; lia|eexists; apply E1; lia].
  - unfold sum_coordinates. cbn [Rsum].
    assert (S0 : second_partial psi x O O = 2) by exact (is_derive_unique _ _ _ E0).
    assert (S1 : second_partial psi x O 1%nat = 0) by exact (is_derive_unique _ _ _ (E1 1%nat ltac:(lia))).
    assert (S2 : second_partial psi x O 2%nat = 0) by exact (is_derive_unique _ _ _ (E1 2%nat ltac:(lia))).
    rewrite S0, S1, S2. ring.
Qed.

(** ** C34 *)
Theorem C34_electron_order : forall d nion locs charges strength softening n x s, renumbering n s ->
  electron_ion_potential d nion locs charges strength softening None n (fun i => x (s i)) = electron_ion_potential d nion locs charges strength softening None n x /\
  electron_electron_potential d strength softening None n (fun i => x (s i)) = electron_electron_potential d strength softening None n x.
Proof. intros. split; [apply ei_renumber; assumption|apply ee_renumber; assumption]. Qed.
Print Assumptions C34_electron_order.

Theorem C34_ion_order : forall d nion locs charges strength softening np n x s, renumbering nion s ->
  electron_ion_potential d nion (fun j => locs (s j)) (fun j => charges (s j)) strength softening np n x =
  electron_ion_potential d nion locs charges strength softening np n x /\
  ion_ion_potential d nion (fun j => locs (s j)) (fun j => charges (s j)) n x = ion_ion_potential d nion locs charges n x.
Proof. intros. split; [apply ei_renumber_ions; assumption|apply ii_renumber; assumption]. Qed.
Print Assumptions C34_ion_order.

(** Any map of space that keeps distances, applied to electrons and ions: translations, reflections, rotations. *)
Theorem C34_isometry : forall d nion locs charges strength softening np n x (phi : (nat -> R) -> nat -> R),
  (forall a b, distance d (phi a) (phi b) = distance d a b) ->
  electron_ion_potential d nion (fun j => phi (locs j)) charges strength softening np n (fun i => phi (x i)) =
  electron_ion_potential d nion locs charges strength softening np n x /\
  electron_electron_potential d strength softening np n (fun i => phi (x i)) = electron_electron_potential d strength softening np n x /\
  ion_ion_potential d nion (fun j => phi (locs j)) charges n (fun i => phi (x i)) = ion_ion_potential d nion locs charges n x.
Proof.
  intros d nion locs Z g s np n x phi H. pose proof (fun s => soft_distance_isometry d s phi H) as HS. split; [|split].
  - rewrite !ei_eq. destruct np as [[|k]|]; [reflexivity| |]; do 3 f_equal; apply xsum2_ext; intros; rewrite HS; reflexivity.
  - rewrite !ee_eq. destruct np as [[|k]|]; [reflexivity| |]; f_equal; [do 2 f_equal|]; apply xsum2_ext; intros;
      unfold offdiag, triu1, tril1, pair_term; rewrite HS; reflexivity.
  - rewrite !ii_eq. f_equal. apply xsum2_ext. intros. unfold triu1, ion_term. rewrite HS. reflexivity.
Qed.
Print Assumptions C34_isometry.

Theorem C34_translation_reflection : forall d (v : nat -> R) (flip : nat -> bool) (a b : nat -> R),
  distance d (fun c => a c + v c) (fun c => b c + v c) = distance d a b /\
  distance d (fun c => if flip c then - a c else a c) (fun c => if flip c then - b c else b c) = distance d a b.
Proof.
  intros. unfold distance. split; f_equal; apply Rsum_ext; intros c _; [ring|destruct (flip c); ring].
Qed.
Print Assumptions C34_translation_reflection.

(** Signs, including coincident particles (infinite values); positive strength and charges. *)
Theorem C34_signs : forall d nion locs charges strength softening n x, 0 < strength -> (forall j, (j < nion)%nat -> 0 < charges j) ->
  (exists v, electron_electron_potential d strength softening None n x = Some v /\ (v = PInf \/ exists r, v = Fin r /\ 0 <= r)) /\
  (exists v, electron_ion_potential d nion locs charges strength softening None n x = Some v /\ (v = MInf \/ exists r, v = Fin r /\ r <= 0)) /\
  (exists v, ion_ion_potential d nion locs charges n x = Some v /\ (v = PInf \/ exists r, v = Fin r /\ 0 <= r)).
Proof.
  intros d nion locs Z g s n x Hg HZ. split; [|split].
  - rewrite ee_eq. eexists. split; [reflexivity|]. apply xnonneg_sum2. intros i j Hi Hj. unfold triu1. destruct (Nat.ltb i j); [|apply xnonneg_0].
    apply xnonneg_div; [assumption|apply soft_distance_nonneg].
  - rewrite ei_eq. eexists. split; [reflexivity|].
    assert (P : xnonneg (xsum2 n nion (fun i j => xdiv (Fin (Z j)) (Fin (soft_distance d s (x i) (locs j)))))).
    { apply xnonneg_sum2. intros i j Hi Hj. apply xnonneg_div; [apply HZ; exact Hj|apply soft_distance_nonneg]. }
    destruct P as [->|(r & -> & Hr)].
    + left. cbn [xmul]. unfold inf_of_sign at 1. destruct (Rlt_dec (- g) 0) as [L|L]; [|lra]. 
      destruct (Rlt_dec 0 (- g)); [lra|]. cbn [xmul]. unfold inf_of_sign. destruct (Rlt_dec (- (1)) 0); [|lra]. destruct (Rlt_dec 0 (- (1))); [lra|]. reflexivity.
    + right. exists (- g * r * 1). split; [reflexivity|]. assert (0 <= g * r) by (apply Rmult_le_pos; lra). lra.
  - rewrite ii_eq. eexists. split; [reflexivity|]. apply xnonneg_sum2. intros i j Hi Hj. unfold triu1. destruct (Nat.ltb_spec i j); [|apply xnonneg_0].
    apply xnonneg_div; [apply Rmult_lt_0_compat; apply HZ; assumption|apply soft_distance_nonneg].
Qed.
Print Assumptions C34_signs.

(** Finite as soon as no softened distance vanishes, in particular always with non-zero softening; the
    ion-ion energy does not depend on the electrons. *)
Theorem C34_finite : forall d nion locs charges strength softening n x,
  (softening <> 0 -> no_coincidence d softening n x /\ no_ion_coincidence d softening n nion x locs) /\
  (no_coincidence d softening n x -> exists v, electron_electron_potential d strength softening None n x = Some (Fin v)) /\
  (no_ion_coincidence d softening n nion x locs -> exists v, electron_ion_potential d nion locs charges strength softening None n x = Some (Fin v)) /\
  (forall n' x', ion_ion_potential d nion locs charges n x = ion_ion_potential d nion locs charges n' x').
Proof.
  intros d nion locs Z g s n x. split; [|split; [|split]].
  - intros Hs. split; intros i j _ _; [intros _|]; intros E; apply soft_distance_zero in E; tauto.
  - intros H. rewrite ee_eq, triu_real by assumption. eexists. reflexivity.
  - intros H. rewrite ei_real by assumption. eexists. reflexivity.
  - intros. rewrite !ii_eq. reflexivity.
Qed.
Print Assumptions C34_finite.

(** Two electrons at 0 and 2 on a line, one ion of charge 3 at 1. *)
Example C34_example : let x := fun i (c : nat) => 2 * INR i in let locs := fun (_ _ : nat) => 1 in
  renumbering 2 (fun i => 1 - i)%nat /\ no_coincidence 1 0 2 x /\ no_ion_coincidence 1 0 2 1 x locs /\
  electron_electron_potential 1 1 0 None 2 x = Some (Fin (1 / 2)) /\
  electron_ion_potential 1 1 locs (fun _ => 3) 1 0 None 2 x = Some (Fin (- 6)).
Proof.
  intros x locs.
  assert (SD : forall (a b : nat -> R), soft_distance 1 0 a b = Rabs (a O - b O)).
  { intros a b. unfold soft_distance, distance. cbn [Rsum]. rewrite Rplus_0_l. rewrite pow2_sqrt by apply pow2_ge_0.
    rewrite pow_i, Rplus_0_r by lia. rewrite <- Rsqr_pow2. apply sqrt_Rsqr_abs. }
  assert (NC : no_coincidence 1 0 2 x).
  { intros i j Hi Hj Hne. rewrite SD. unfold x. destruct i as [|[|i]], j as [|[|j]]; try lia; simpl; apply Rabs_no_R0; lra. }
  assert (NI : no_ion_coincidence 1 0 2 1 x locs).
  { intros i j Hi Hj. rewrite SD. unfold x, locs. destruct i as [|[|i]]; try lia; simpl; apply Rabs_no_R0; lra. }
  split; [apply perm_swap|]. split; [exact NC|]. split; [exact NI|]. split.
  - rewrite ee_eq, triu_real by exact NC. cbn [unordered_pairs seq flat_map map app Nat.sub fst snd lsum fold_right]. unfold real_pair. rewrite SD. unfold x.
    do 2 f_equal. simpl. rewrite Rabs_left by lra. field.
  - rewrite ei_real by exact NI. do 2 f_equal. cbn [Rsum]. rewrite !SD. unfold x, locs. simpl. rewrite Rabs_left, Rabs_right by lra. field.
Qed.

(** ** C35 *)
Theorem C35_each_pair_once : forall d strength softening n x,
  electron_electron_potential d strength softening None n x =
  Some (xsum (map (fun ij => xdiv (Fin strength) (Fin (soft_distance d softening (x (fst ij)) (x (snd ij))))) (unordered_pairs n))) /\
  NoDup (unordered_pairs n) /\ (forall i j, In (i, j) (unordered_pairs n) <-> (i < j < n)%nat).
Proof.
  intros. rewrite ee_eq. split; [f_equal; apply triu_pairs|]. split; [apply unordered_pairs_NoDup|apply in_unordered_pairs].
Qed.
Print Assumptions C35_each_pair_once.

(** With nparticles = k a pair counts n/k times 1, 1/2 or 0 according to how many of its members are among the
    first k. *)
Theorem C35_sampled_weights : forall d strength softening k n x, (0 < k)%nat -> no_coincidence d softening n x ->
  electron_electron_potential d strength softening (Some k) n x =
  Some (Fin (INR n / INR k * lsum (map (fun ij =>
     ((if Nat.ltb (fst ij) k then 1 else 0) + (if Nat.ltb (snd ij) k then 1 else 0)) / 2 *
     (strength / soft_distance d softening (x (fst ij)) (x (snd ij)))) (unordered_pairs n)))).
Proof. intros. apply ee_sampled_real; assumption. Qed.
Print Assumptions C35_sampled_weights.

Theorem C35_all_particles : forall d nion locs charges strength softening n x, (0 < n)%nat ->
  (no_coincidence d softening n x ->
   electron_electron_potential d strength softening (Some n) n x = electron_electron_potential d strength softening None n x) /\
  (no_ion_coincidence d softening n nion x locs ->
   electron_ion_potential d nion locs charges strength softening (Some n) n x = electron_ion_potential d nion locs charges strength softening None n x).
Proof.
  intros d nion locs Z g s n x Hn. pose proof (INR_pos n Hn) as Pn. split; intros H.
  - rewrite ee_sampled_real by assumption. rewrite ee_eq, triu_real by assumption. do 2 f_equal.
    replace (INR n / INR n) with 1 by (field; lra). rewrite Rmult_1_l. apply lsum_map_ext_in. intros [i j] Hij. apply in_unordered_pairs in Hij.
    cbn [fst snd]. unfold first_share. destruct (Nat.ltb_spec i n), (Nat.ltb_spec j n); try lia. lra.
  - rewrite ei_sampled_real, ei_real by assumption. do 2 f_equal. rewrite Nat.min_id. field. lra.
Qed.
Print Assumptions C35_all_particles.

Theorem C35_unbiased : forall d nion locs charges strength softening k n x, (0 < k <= n)%nat ->
  (no_coincidence d softening n x ->
   average_over_orders n (fun s => toR (electron_electron_potential d strength softening (Some k) n (fun i => x (s i)))) =
   toR (electron_electron_potential d strength softening None n x)) /\
  (no_ion_coincidence d softening n nion x locs ->
   average_over_orders n (fun s => toR (electron_ion_potential d nion locs charges strength softening (Some k) n (fun i => x (s i)))) =
   toR (electron_ion_potential d nion locs charges strength softening None n x)).
Proof. intros. split; intros; [apply ee_average|apply ei_average]; assumption. Qed.
Print Assumptions C35_unbiased.

(** The list averaged over contains every order of the particles exactly (n! entries). *)
Theorem C35_orders_complete : forall n p, (In p (orders (seq 0 n)) <-> Permutation p (seq 0 n)) /\ length (orders (seq 0 n)) = fact n.
Proof. intros. split; [apply in_orders|rewrite orders_length, seq_length; reflexivity]. Qed.
Print Assumptions C35_orders_complete.

(** Boundary behaviour: nparticles = 0 is an error; nparticles > n silently scales the potential down. *)
Theorem C35_boundaries : forall d nion locs charges strength softening n x,
  electron_electron_potential d strength softening (Some O) n x = None /\
  electron_ion_potential d nion locs charges strength softening (Some O) n x = None /\
  forall k, (0 < n < k)%nat -> no_coincidence d softening n x -> no_ion_coincidence d softening n nion x locs ->
  toR (electron_electron_potential d strength softening (Some k) n x) = INR n / INR k * toR (electron_electron_potential d strength softening None n x) /\
  toR (electron_ion_potential d nion locs charges strength softening (Some k) n x) = INR n / INR k * toR (electron_ion_potential d nion locs charges strength softening None n x).
Proof.
  intros d nion locs Z g s n x. split; [reflexivity|]. split; [reflexivity|]. intros k Hk HC HI. split.
  - rewrite ee_sampled_real by (try lia; assumption). rewrite ee_eq, triu_real by assumption. cbn [toR]. f_equal. apply lsum_map_ext_in.
    intros [i j] Hij. apply in_unordered_pairs in Hij. cbn [fst snd]. unfold first_share. destruct (Nat.ltb_spec i k), (Nat.ltb_spec j k); try lia. lra.
  - rewrite ei_sampled_real, ei_real by (try lia; assumption). cbn [toR]. f_equal. replace (Nat.min k n) with n by lia. reflexivity.
Qed.
Print Assumptions C35_boundaries.

Example C35_example : unordered_pairs 3 = [(0, 1); (0, 2); (1, 2)]%nat /\ orders [0; 1]%nat = [[0; 1]; [1; 0]]%nat.
Proof. split; reflexivity. Qed.

(** ** C36 *)
Theorem C36_kinetic_unbiased : forall (log_psi : positions -> R) k np x, reads np 3 log_psi -> (0 < k <= np)%nat ->
  average_over_orders np (fun s => match random_particle_kinetic_energy log_psi k np 3 x s with Some v => v | None => 0 end) =
  match laplacian_kinetic_energy log_psi np 3 x with Some v => v | None => 0 end.
Proof. intros f k np x HR Hk. apply (kinetic_average np 3 k k f x); try assumption; lia. Qed.
Print Assumptions C36_kinetic_unbiased.

(** Other dimensions: unbiased when the 3k sampled coordinates are whole particles. *)
Theorem C36_whole_particles : forall (log_psi : positions -> R) k np d x, reads np d log_psi -> (0 < k)%nat -> (0 < d)%nat ->
  Nat.divide d (3 * k) -> (3 * k <= np * d)%nat ->
  average_over_orders np (fun s => match random_particle_kinetic_energy log_psi k np d x s with Some v => v | None => 0 end) =
  match laplacian_kinetic_energy log_psi np d x with Some v => v | None => 0 end.
Proof. intros f k np d x HR Hk Hd [q Hq] Hle. apply (kinetic_average np d q k f x); try assumption. nia. Qed.
Print Assumptions C36_whole_particles.

Lemma linear_T i0 c0 (x : positions) i c : let f := fun y : positions => y i0 c0 in
  Derive (line f x i c) 0 ^ 2 + Derive (Derive (line f x i c)) 0 = if (Nat.eqb i0 i && Nat.eqb c0 c)%bool then 1 else 0.
Proof.
  intros f. assert (D : forall t, Derive (line f x i c) t = if (Nat.eqb i0 i && Nat.eqb c0 c)%bool then 1 else 0).
  { intros t. apply is_derive_unique. unfold line, f, move. destruct (Nat.eqb i0 i && Nat.eqb c0 c)%bool; [auto_derive; [trivial|ring]|apply is_derive_constR]. }
  rewrite (Derive_ext _ _ _ D), Derive_const, D. destruct (Nat.eqb i0 i && Nat.eqb c0 c)%bool; ring.
Qed.

Definition slope2 (f : positions -> R) (x : positions) (i c : nat) : R := Derive (line f x i c) 0 ^ 2 + Derive (Derive (line f x i c)) 0.

Lemma two_d_estimate (f : positions -> R) (x : positions) s : reads 2 2 f -> (s 0 < 2)%nat -> (s 1 < 2)%nat ->
  random_particle_kinetic_energy f 1 2 2 x s = Some (- (1 / 2) * ((slope2 f x (s 0%nat) 0 + slope2 f x (s 0%nat) 1 + slope2 f x (s 1%nat) 0) * (4 / 3))).
Proof.
  intros HR H0 H1. unfold random_particle_kinetic_energy, laplacian_psi_over_psi. cbn [option_map].
  change (3 * 1)%nat with 3%nat. change (2 * 2)%nat with 4%nat. cbn [Rsum].
  change (Nat.min 0 (4 - 1)) with 0%nat. change (Nat.min 1 (4 - 1)) with 1%nat. change (Nat.min 2 (4 - 1)) with 2%nat.
  change (0 / 2)%nat with 0%nat. change (1 / 2)%nat with 0%nat. change (2 / 2)%nat with 1%nat.
  change (0 mod 2)%nat with 0%nat. change (1 mod 2)%nat with 1%nat. change (2 mod 2)%nat with 0%nat.
  pose proof (scan_term 2 2 f x (s 0%nat) 0 HR H0 ltac:(lia)) as T0.
  pose proof (scan_term 2 2 f x (s 0%nat) 1 HR H0 ltac:(lia)) as T1.
  pose proof (scan_term 2 2 f x (s 1%nat) 0 HR H1 ltac:(lia)) as T2.
  cbv zeta in T0, T1, T2. change (2 * 2)%nat with 4%nat in T0, T1, T2. unfold jvp in *. cbn [fst snd] in T0, T1, T2. cbv beta iota zeta.
  rewrite T0, T1, T2. unfold slope2. replace (INR 4 / INR 3) with (4 / 3) by (simpl; field). f_equal. ring.
Qed.

(** In two dimensions with nparticles = 1 the estimate is biased: log psi = first coordinate of the first of
    two particles has kinetic energy -1/2, the average of the estimates is -2/3. *)
Theorem C36_two_dimensions_refuted : exists (log_psi : positions -> R) x, reads 2 2 log_psi /\
  laplacian_kinetic_energy log_psi 2 2 x = Some (- (1 / 2)) /\
  average_over_orders 2 (fun s => match random_particle_kinetic_energy log_psi 1 2 2 x s with Some v => v | None => 0 end) = - (2 / 3).
Proof.
  exists (fun y => y O O), (fun _ _ => 0).
  assert (HR : reads 2 2 (fun y : positions => y O O)) by (intros y z E; apply E; lia).
  split; [exact HR|]. split.
  - unfold laplacian_kinetic_energy. rewrite laplacian_full by exact HR. cbn [option_map Rsum]. rewrite !linear_T. cbn [Nat.eqb andb]. f_equal. ring.
  - unfold average_over_orders. cbn [orders seq flat_map insertions map app length lsum fold_right].
    rewrite !(two_d_estimate (fun y => y O O)) by (first [exact HR|cbn; lia]). unfold slope2. rewrite !linear_T. cbn [nth Nat.eqb andb INR]. lra.
Qed.
Print Assumptions C36_two_dimensions_refuted.

Lemma oversampled_estimate (f : positions -> R) (x : positions) : reads 1 3 f ->
  random_particle_kinetic_energy f 2 1 3 x (fun i => i) =
  Some (- (1 / 2) * ((slope2 f x 0 0 + slope2 f x 0 1 + slope2 f x 0 2 + slope2 f x 0 2 + slope2 f x 0 2 + slope2 f x 0 2) * (1 / 2))).
Proof.
  intros HR. unfold random_particle_kinetic_energy, laplacian_psi_over_psi. cbn [option_map].
  change (3 * 2)%nat with 6%nat. change (1 * 3)%nat with 3%nat. cbn [Rsum].
  change (Nat.min 0 (3 - 1)) with 0%nat. change (Nat.min 1 (3 - 1)) with 1%nat. change (Nat.min 2 (3 - 1)) with 2%nat.
  change (Nat.min 3 (3 - 1)) with 2%nat. change (Nat.min 4 (3 - 1)) with 2%nat. change (Nat.min 5 (3 - 1)) with 2%nat.
  change (0 / 3)%nat with 0%nat. change (1 / 3)%nat with 0%nat. change (2 / 3)%nat with 0%nat.
  change (0 mod 3)%nat with 0%nat. change (1 mod 3)%nat with 1%nat. change (2 mod 3)%nat with 2%nat.
  pose proof (scan_term 1 3 f x 0 0 HR ltac:(lia) ltac:(lia)) as T0.
  pose proof (scan_term 1 3 f x 0 1 HR ltac:(lia) ltac:(lia)) as T1.
  pose proof (scan_term 1 3 f x 0 2 HR ltac:(lia) ltac:(lia)) as T2.
  cbv zeta in T0, T1, T2. change (1 * 3)%nat with 3%nat in T0, T1, T2. unfold jvp in *. cbn [fst snd] in T0, T1, T2. cbv beta iota zeta.
  rewrite T0, T1, T2. unfold slope2. replace (INR 3 / INR 6) with (1 / 2) by (simpl; field). f_equal. ring.
Qed.

(** More sampled particles than electrons: out-of-range rows repeat the last one. *)
Theorem C36_too_many_particles_refuted : exists (log_psi : positions -> R) x, reads 1 3 log_psi /\
  laplacian_kinetic_energy log_psi 1 3 x = Some (- (1 / 2)) /\ random_particle_kinetic_energy log_psi 2 1 3 x (fun i => i) = Some (- (1)).
Proof.
  exists (fun y => y O 2%nat), (fun _ _ => 0).
  assert (HR : reads 1 3 (fun y : positions => y O 2%nat)) by (intros y z E; apply E; lia).
  split; [exact HR|]. split.
  - unfold laplacian_kinetic_energy. rewrite laplacian_full by exact HR. cbn [option_map Rsum]. rewrite !linear_T. cbn [Nat.eqb andb]. f_equal. ring.
  - rewrite oversampled_estimate by exact HR. unfold slope2. rewrite !linear_T. cbn [Nat.eqb andb]. f_equal. field.
Qed.
Print Assumptions C36_too_many_particles_refuted.

(** The whole sampled local energy, with any combination of sampled terms. *)
Theorem C36_local_energy_unbiased : forall (log_psi : positions -> R) nion locs charges k bk bei bee ei_softening ee_softening n x,
  reads n 3 log_psi -> (0 < k <= n)%nat ->
  no_coincidence 3 ee_softening n x -> no_ion_coincidence 3 ei_softening n nion x locs -> no_coincidence 3 0 nion locs ->
  average_over_orders n (fun s => toR (random_particle_local_energy log_psi 3 nion locs charges k bk bei bee ei_softening ee_softening n x s)) =
  toR (molecular_local_energy log_psi 3 nion locs charges ei_softening ee_softening n x).
Proof.
  intros f nion locs Z k bk bei bee sei see n x HR Hk HC HI HII.
  destruct (ion_ion_real 3 nion locs Z n x HII) as (vii & Eii).
  set (kin := fun s => match random_particle_kinetic_energy f k n 3 x s with Some v => v | None => 0 end).
  set (kin0 := match laplacian_kinetic_energy f n 3 x with Some v => v | None => 0 end).
  set (ei := fun s : nat -> nat => toR (electron_ion_potential 3 nion locs Z 1 sei (Some k) n (fun i => x (s i)))).
  set (ei0 := toR (electron_ion_potential 3 nion locs Z 1 sei None n x)).
  set (ee := fun s : nat -> nat => toR (electron_electron_potential 3 1 see (Some k) n (fun i => x (s i)))).
  set (ee0 := toR (electron_electron_potential 3 1 see None n x)).
  rewrite (average_ext n _ (fun s => (if bk then kin s else kin0) + (vii + ((if bei then ei s else ei0) + (if bee then ee s else ee0))))).
  - rewrite !average_plus, average_const.
    assert (A1 : average_over_orders n (fun s => if bk then kin s else kin0) = kin0).
    { destruct bk; [apply (C36_kinetic_unbiased f k n x HR Hk)|apply average_const]. }
    assert (A2 : average_over_orders n (fun s => if bei then ei s else ei0) = ei0).
    { destruct bei; [apply ei_average; assumption|apply average_const]. }
    assert (A3 : average_over_orders n (fun s => if bee then ee s else ee0) = ee0).
    { destruct bee; [apply ee_average; assumption|apply average_const]. }
    rewrite A1, A2, A3. unfold molecular_local_energy, kin0, ei0, ee0, laplacian_kinetic_energy. rewrite laplacian_full by assumption.
    rewrite Eii, ei_real, ee_eq, triu_real by assumption. cbn [option_map oadd xadd toR]. ring.
  - intros s Hs. unfold random_particle_local_energy.
    assert (Eii' : ion_ion_potential 3 nion locs Z n (fun i => x (s i)) = Some (Fin vii)) by (rewrite <- Eii, !ii_eq; reflexivity).
    rewrite Eii'.
    assert (EK : option_map Fin (if bk then random_particle_kinetic_energy f k n 3 x s else laplacian_kinetic_energy f n 3 x) = Some (Fin (if bk then kin s else kin0))).
    { destruct bk.
      - unfold kin, random_particle_kinetic_energy, laplacian_psi_over_psi. destruct k as [|k]; [lia|]. reflexivity.
      - unfold kin0, laplacian_kinetic_energy. rewrite laplacian_full by assumption. reflexivity. }
    rewrite EK.
    assert (HIs : no_ion_coincidence 3 sei n nion (fun i => x (s i)) locs).
    { intros i j Hi Hj. apply HI; [apply (renumbering_bound n s Hs); assumption|assumption]. }
    pose proof (no_coincidence_renumber 3 see n x s Hs HC) as HCs.
    assert (EI : electron_ion_potential 3 nion locs Z 1 sei (if bei then Some k else None) n (fun i => x (s i)) = Some (Fin (if bei then ei s else ei0))).
    { destruct bei.
      - unfold ei. rewrite ei_sampled_real by (try lia; assumption). reflexivity.
      - unfold ei0. rewrite ei_renumber by assumption. rewrite ei_real by assumption. reflexivity. }
    assert (EE : electron_electron_potential 3 1 see (if bee then Some k else None) n (fun i => x (s i)) = Some (Fin (if bee then ee s else ee0))).
    { destruct bee.
      - unfold ee. rewrite ee_sampled_real by (try lia; assumption). reflexivity.
      - unfold ee0. rewrite ee_renumber by assumption. rewrite ee_eq, triu_real by assumption. reflexivity. }
    rewrite EI, EE. cbn [oadd xadd toR]. ring.
Qed.
Print Assumptions C36_local_energy_unbiased.

Example C36_example : reads 2 3 (fun y : positions => y O O * y 1%nat 2%nat) /\ (0 < 1 <= 2)%nat.
Proof. split; [intros y z E; rewrite !E by lia; reflexivity|lia]. Qed.

(** ** C37 *)
Theorem C37_norm_bounds : forall d u s,
  sqrt (Rsum d (fun c => u c ^ 2)) <= compute_soft_norm d u s /\ Rabs s <= compute_soft_norm d u s /\
  (compute_soft_norm d u s = 0 <-> (forall c, (c < d)%nat -> u c = 0) /\ s = 0) /\
  compute_soft_norm d u 0 = sqrt (Rsum d (fun c => u c ^ 2)).
Proof.
  intros d u s. unfold compute_soft_norm.
  assert (P : 0 <= Rsum d (fun c => u c ^ 2)) by (apply Rsum_nonneg; intros; apply pow2_ge_0).
  pose proof (pow2_ge_0 s) as Q. split; [|split; [|split]].
  - apply sqrt_le_1; lra.
  - rewrite <- (sqrt_Rsqr_abs s). rewrite Rsqr_pow2. apply sqrt_le_1; lra.
  - split.
    + intros E. apply sqrt_eq_0 in E; [|lra]. assert (E1 : Rsum d (fun c => u c ^ 2) = 0) by lra. assert (E2 : s ^ 2 = 0) by lra. split.
      * intros c Hc. pose proof (Rsum_zero_terms d (fun c => u c ^ 2) ltac:(intros; apply pow2_ge_0) E1 c Hc) as Z. apply Rsqr_0_uniq. rewrite Rsqr_pow2. exact Z.
      * apply Rsqr_0_uniq. rewrite Rsqr_pow2. exact E2.
    + intros [H ->]. rewrite (Rsum_eq_0 d); [rewrite pow_i by lia; rewrite Rplus_0_l; apply sqrt_0|]. intros c Hc. rewrite H by assumption. apply pow_i. lia.
  - rewrite pow_i by lia. rewrite Rplus_0_r. reflexivity.
Qed.
Print Assumptions C37_norm_bounds.

(** Backward rule: derivative with respect to each displacement entry and to the softening. *)
Theorem C37_backward_rule : forall d u s g,
  let norm := compute_soft_norm d u s in
  (norm <> 0 ->
   (forall c, (c < d)%nat -> exists D, is_derive (fun t => compute_soft_norm d (fun k => if Nat.eqb k c then u k + t else u k) s) 0 D /\
                              fst (soft_norm_bwd norm u s g) c = g * D) /\
   (exists D, is_derive (fun s => compute_soft_norm d u s) s D /\ snd (soft_norm_bwd norm u s g) = Fin (g * D))) /\
  (norm = 0 -> forall c, fst (soft_norm_bwd norm u s g) c = 0).
Proof.
  intros d u s g norm. split.
  - intros H. split.
    + intros c Hc. exists (u c / norm). split.
      * destruct (norm_C2 d u s c 1 Hc H) as (A & _ & _). replace (u c / norm) with (1 * (u c / compute_soft_norm d u s)) by (unfold norm; ring).
        apply (is_derive_ext (fun t => compute_soft_norm d (shifted u c 1 t) s)); [|exact A].
        intros t. f_equal. apply functional_extensionality. intros k. unfold shifted. destruct (Nat.eqb k c); [ring|reflexivity].
      * unfold soft_norm_bwd. cbn [fst]. destruct (Req_EM_T norm 0); [contradiction|reflexivity].
    + exists (s / norm). split.
      * assert (P : 0 < Rsum d (fun c => u c ^ 2) + s ^ 2).
        { assert (0 <= Rsum d (fun c => u c ^ 2)) by (apply Rsum_nonneg; intros; apply pow2_ge_0). pose proof (pow2_ge_0 s).
          destruct (Req_EM_T (Rsum d (fun c => u c ^ 2) + s ^ 2) 0) as [E|E]; [|lra]. exfalso. apply H. unfold norm, compute_soft_norm. rewrite E. apply sqrt_0. }
        unfold norm, compute_soft_norm. set (q := Rsum d (fun c => u c ^ 2)) in *. clearbody q.
        auto_derive; [replace (s * (s * 1)) with (s ^ 2) by ring; exact P|].
        replace (s * (s * 1)) with (s ^ 2) by ring. field. apply Rgt_not_eq, sqrt_lt_R0. exact P.
      * unfold soft_norm_bwd. cbn [snd]. rewrite xdiv_fin by exact H. cbn [xmul]. f_equal.
  - intros H c. unfold soft_norm_bwd. cbn [fst]. destruct (Req_EM_T norm 0); [ring|contradiction].
Qed.
Print Assumptions C37_backward_rule.

(** At a vanishing norm the derivative with respect to the softening is NaN. *)
Theorem C37_softening_at_zero_refuted : forall u g, snd (soft_norm_bwd 0 u 0 g) = NaN.
Proof. intros. unfold soft_norm_bwd. cbn [snd]. rewrite xdiv_0_0. apply xmul_nan_r. Qed.
Print Assumptions C37_softening_at_zero_refuted.

Example C37_example : compute_soft_norm 2 (fun c => match c with O => 3 | _ => 4 end) 0 = 5.
Proof. unfold compute_soft_norm. cbn [Rsum]. replace (0 + 3 ^ 2 + 4 ^ 2 + 0 ^ 2) with (5 ^ 2) by ring. apply sqrt_pow2. lra. Qed.

(** ** C38 *)
(** Laplacian of the auxiliary potential, any dimension and softening. *)
Theorem C38_laplacian_formula : forall d nion locs charges bei sei bee see n x,
  no_ion_coincidence d sei n nion x locs -> no_coincidence d see n x ->
  sum_coordinates n d (second_partial (ibp_U d nion locs charges bei sei bee see n) x) =
  (if bei then - Rsum n (fun i => Rsum nion (fun j => let r := soft_distance d sei (x i) (locs j) in charges j / 2 * ((INR d - 1) / r + sei ^ 2 / r ^ 3))) else 0)
  + (if bee then lsum (map (fun ij => let r := soft_distance d see (x (fst ij)) (x (snd ij)) in 1 / 2 * ((INR d - 1) / r + see ^ 2 / r ^ 3)) (unordered_pairs n)) else 0).
Proof.
  intros d nion locs Z bei sei bee see n x HI HC. rewrite <- lap_total by (intros; assumption). unfold sum_coordinates.
  apply Rsum_ext. intros i Hi. apply Rsum_ext. intros c Hc.
  destruct (U_C2 d nion locs Z bei sei bee see n x (fun _ => HI) (fun _ => HC) i c Hi Hc) as (_ & _ & A). exact (is_derive_unique _ _ _ A).
Qed.
Print Assumptions C38_laplacian_formula.

(** In 3D without softening it is the Coulomb potential. *)
Theorem C38_laplacian_is_coulomb : forall nion locs charges bei bee n x,
  no_ion_coincidence 3 0 n nion x locs -> no_coincidence 3 0 n x ->
  sum_coordinates n 3 (second_partial (ibp_U 3 nion locs charges bei 0 bee 0 n) x) =
  (if bei then toR (electron_ion_potential 3 nion locs charges 1 0 None n x) else 0) +
  (if bee then toR (electron_electron_potential 3 1 0 None n x) else 0).
Proof.
  intros nion locs Z bei bee n x HI HC. rewrite C38_laplacian_formula by assumption. f_equal.
  - destruct bei; [|reflexivity]. rewrite ei_real by assumption. cbn [toR]. rewrite <- Ropp_mult_distr_l, Rmult_1_l. f_equal.
    apply Rsum_ext. intros i Hi. apply Rsum_ext. intros j Hj. cbv zeta. specialize (HI i j Hi Hj). simpl INR. field. exact HI.
  - destruct bee; [|reflexivity]. rewrite ee_eq, triu_real by assumption. cbn [toR]. apply lsum_map_ext_in. intros [i j] Hij. apply in_unordered_pairs in Hij.
    cbn [fst snd]. cbv zeta. unfold real_pair. assert (soft_distance 3 0 (x i) (x j) <> 0) by (apply HC; lia). simpl INR. field. assumption.
Qed.
Print Assumptions C38_laplacian_is_coulomb.

(** With softening it is not: one electron anywhere, one ion, any non-zero softening. *)
Theorem C38_softening_refuted : forall softening charge x locs, softening <> 0 -> charge <> 0 ->
  sum_coordinates 1 3 (second_partial (ibp_U 3 1 locs (fun _ => charge) true softening false 0 1) x) <>
  toR (electron_ion_potential 3 1 locs (fun _ => charge) 1 softening None 1 x).
Proof.
  intros s Z x locs Hs HZ. assert (HI : no_ion_coincidence 3 s 1 1 x locs) by (intros i j _ _ E; apply soft_distance_zero in E; tauto).
  assert (HC : no_coincidence 3 0 1 x) by (intros i j; lia).
  rewrite C38_laplacian_formula by assumption. rewrite ei_real by assumption. cbn [toR Rsum]. cbv zeta.
  specialize (HI O O ltac:(lia) ltac:(lia)). set (r := soft_distance 3 s (x O) (locs O)) in *. intros E.
  assert (E2 : Z * s ^ 2 / (2 * r ^ 3) = 0).
  { apply (Rplus_eq_reg_r (Z / r)). rewrite Rplus_0_l. simpl INR in E. 
    transitivity (- (- (0 + (0 + Z / 2 * ((1 + 1 + 1 - 1) / r + s ^ 2 / r ^ 3))) + 0)); [field; exact HI|].
    rewrite E. field. exact HI. }
  apply Rmult_integral in E2. destruct E2 as [E2|E2].
  - apply Rmult_integral in E2. destruct E2 as [E2|E2]; [contradiction|]. apply (pow_nonzero s 2 Hs). exact E2.
  - revert E2. apply Rinv_neq_0_compat. apply Rmult_integral_contrapositive. split; [lra|]. apply pow_nonzero. exact HI.
Qed.
Print Assumptions C38_softening_refuted.

(** The gradient used by the integrated energy is the gradient of the auxiliary potential. *)
Theorem C38_gradient : forall d nion locs charges bei sei bee see n x i c, (i < n)%nat -> (c < d)%nat ->
  no_ion_coincidence d sei n nion x locs -> no_coincidence d see n x ->
  ibp_grad_U d nion locs charges bei sei bee see n x i c = partial (ibp_U d nion locs charges bei sei bee see n) x i c.
Proof.
  intros d nion locs Z bei sei bee see n x i c Hi Hc HI HC.
  destruct (U_C2 d nion locs Z bei sei bee see n x (fun _ => HI) (fun _ => HC) i c Hi Hc) as (A & _ & _). symmetry. exact (is_derive_unique _ _ _ A).
Qed.
Print Assumptions C38_gradient.

(** The two local energies differ by an exact divergence over psi^2: the vector field with components
    psi^2 dU - 1/2 psi dpsi (the second term only when the kinetic energy is integrated by parts). *)
Theorem C38_divergence : forall d nion locs charges (bk bei : bool) sei (bee : bool) see n x (psi : positions -> R),
  (bei = true \/ bee = true -> d = 3%nat) -> (bei = true -> sei = 0) -> (bee = true -> see = 0) ->
  no_ion_coincidence d sei n nion x locs -> no_coincidence d see n x -> no_coincidence d 0 nion locs ->
  reads n d psi -> psi x <> 0 -> smooth_at n d psi x ->
  let U := ibp_U d nion locs charges bei sei bee see n in
  let field (i c : nat) (y : positions) : R := psi y ^ 2 * partial U y i c - (if bk then 1 / 2 * (psi y * partial psi y i c) else 0) in
  exists e_std e_ibp,
    molecular_local_energy (fun y => ln (Rabs (psi y))) d nion locs charges sei see n x = Some (Fin e_std) /\
    ibp_local_energy (fun y => ln (Rabs (psi y))) d nion locs charges bk bei sei bee see n x = Some (Fin e_ibp) /\
    psi x ^ 2 * (e_std - e_ibp) = sum_coordinates n d (fun i c => partial (field i c) x i c).
Proof.
  intros d nion locs Z bk bei sei bee see n x psi Hd H1 H2 HI HC HII HR H0 HS U field.
  destruct (ibp_divergence d nion locs Z bk bei sei bee see n x psi Hd H1 H2 HI HC HII HR H0 HS) as (e1 & e2 & A & B & C).
  exists e1, e2. split; [exact A|]. split; [exact B|]. rewrite C. unfold sum_coordinates. apply Rsum_ext. intros i Hi. apply Rsum_ext. intros c Hc.
  unfold partial at 1, field. apply Derive_ext. intros t.
  change (displaced x i c t) with (move x i c t).
  pose proof (grad_x_move U x i c t) as E1. pose proof (grad_x_move psi x i c t) as E2. unfold grad_x, line in E1, E2. unfold partial.
  change (displaced (move x i c t) i c) with (move (move x i c t) i c). rewrite E1, E2. reflexivity.
Qed.
Print Assumptions C38_divergence.

(** One electron at distance 1 from a proton, psi constant: all hypotheses hold. *)
Example C38_example : let x := fun (i c : nat) => if Nat.eqb c 0 then 1 else 0 in let locs := fun _ _ : nat => 0 in
  no_ion_coincidence 3 0 1 1 x locs /\ no_coincidence 3 0 1 x /\ no_coincidence 3 0 1 locs /\
  reads 1 3 (fun _ : positions => 1) /\ smooth_at 1 3 (fun _ => 1) x.
Proof.
  intros x locs. split; [|split; [|split; [|split]]].
  - intros i j _ _ E. apply soft_distance_zero in E. destruct E as [E _]. unfold distance, x, locs in E. cbn [Rsum Nat.eqb] in E.
    apply sqrt_eq_0 in E; lra.
  - intros i j; lia.
  - intros i j; lia.
  - intros y z _. reflexivity.
  - intros i c _ _. destruct (C2_const 1) as (_ & A & B). split; [exact A|]. eexists. exact B.
Qed.

(** ** C39 *)
Theorem C39_local_energy : forall d decay charge x, (0 < d)%nat -> let r := distance d (x O) (fun _ => 0) in r <> 0 ->
  hydrogen_local_energy (hydrogen_log_psi d decay) charge d x =
  Some (Fin (- decay ^ 2 / 2 + ((INR d - 1) * decay / 2 - charge) / r)).
Proof. intros. apply hydrogen_energy; assumption. Qed.
Print Assumptions C39_local_energy.

Theorem C39_constant_iff : forall d decay charge, (2 <= d)%nat ->
  ((forall x y, distance d (x O) (fun _ => 0) <> 0 -> distance d (y O) (fun _ => 0) <> 0 ->
      hydrogen_local_energy (hydrogen_log_psi d decay) charge d x = hydrogen_local_energy (hydrogen_log_psi d decay) charge d y)
   <-> decay = 2 * charge / (INR d - 1)).
Proof.
  intros d a Z Hd. assert (HD : 0 < INR d - 1) by (pose proof (le_INR 2 d Hd) as L; simpl in L; lra).
  assert (Hpos : forall v, 0 < v -> distance d (fun c => if Nat.eqb c 0 then v else 0) (fun _ => 0) = v).
  { intros v Hv. unfold distance. rewrite (Rsum_single d 0); [cbn [Nat.eqb]|lia|].
    - replace ((v - 0) ^ 2) with (v ^ 2) by ring. apply sqrt_pow2. lra.
    - intros i _ Hi. destruct (Nat.eqb_spec i 0); [contradiction|]. ring. }
  split.
  - intros H. specialize (H (fun _ c => if Nat.eqb c 0 then 1 else 0) (fun _ c => if Nat.eqb c 0 then 2 else 0)). cbv beta in H.
    rewrite (Hpos 1), (Hpos 2) in H by lra. specialize (H ltac:(lra) ltac:(lra)).
    rewrite !C39_local_energy in H by (try lia; cbv beta; rewrite ?(Hpos 1), ?(Hpos 2) by lra; lra). cbv beta in H.
    rewrite (Hpos 1), (Hpos 2) in H by lra. injection H as H.
    apply (Rmult_eq_reg_r (INR d - 1)); [|lra]. replace (2 * Z / (INR d - 1) * (INR d - 1)) with (2 * Z) by (field; lra). lra.
  - intros E x y Hx Hy. rewrite !C39_local_energy by (try lia; assumption). do 2 f_equal.
    replace ((INR d - 1) * a / 2 - Z) with 0 by (rewrite E; field; lra). unfold Rdiv. ring.
Qed.
Print Assumptions C39_constant_iff.

(** The hydrogen ground state in 3D: decay 1, charge 1, energy -1/2 everywhere. *)
Example C39_example : hydrogen_local_energy (hydrogen_log_psi 3 1) 1 3 (fun _ c => if Nat.eqb c 0 then 2 else 0) = Some (Fin (- (1 / 2))).
Proof.
  rewrite C39_local_energy; [|lia|].
  - do 2 f_equal. simpl INR. replace ((1 + 1 + 1 - 1) * 1 / 2 - 1) with 0 by field. unfold Rdiv. rewrite Rmult_0_l. lra.
  - unfold distance. cbn [Rsum Nat.eqb]. intros E. apply sqrt_eq_0 in E; lra.
Qed.

(** ** C40 *)
Theorem C40_hermite : forall N j x, (j < N)%nat -> nth j (make_hermite_polynomials N x) 0 = hermite j x.
Proof. intros. rewrite hermite_hseq. apply make_hermite_nth. assumption. Qed.
Print Assumptions C40_hermite.

Theorem C40_hermite_count : forall N x, (0 < N)%nat -> length (make_hermite_polynomials N x) = N.
Proof.
  intros N x H. unfold make_hermite_polynomials. destruct (Nat.eqb_spec N 1) as [->|HN]; [reflexivity|].
  rewrite (hermite_loop_spec x (N - 2) 2); [|lia|reflexivity]. rewrite map_length, seq_length. lia.
Qed.
Print Assumptions C40_hermite_count.

(** Hermite's differential equation y'' - 2 x y' + 2 n y = 0. *)
Theorem C40_hermite_equation : forall n x,
  Derive_n (hermite n) 2 x - 2 * x * Derive (hermite n) x + 2 * INR n * hermite n x = 0.
Proof.
  intros n x. assert (E : forall y, hermite n y = hseq n y) by (intros; apply hermite_hseq).
  rewrite E, (Derive_ext _ _ _ E), (Derive_n_ext _ _ 2 _ E). cbn [Derive_n].
  rewrite (Derive_ext (fun y => Derive (fun z => hseq n z) y) (dh n)) by (intros y; apply is_derive_unique, hseq_derive).
  rewrite (is_derive_unique _ _ _ (dh_derive n x)).
  replace (Derive (hseq n) x) with (dh n x) by (symmetry; apply is_derive_unique, hseq_derive). ring.
Qed.
Print Assumptions C40_hermite_equation.

(** Every orbital is an eigenfunction of -1/2 d^2/dx^2 + (omega x)^2/2 with energy omega (j + 1/2). *)
Theorem C40_orbital_eigenfunction : forall omega kernel N j x, kernel ^ 2 = omega -> (j < N)%nat ->
  - (1 / 2) * Derive_n (harmonic_orbital kernel N j) 2 x + 1 / 2 * (omega * x) ^ 2 * harmonic_orbital kernel N j x =
  omega * (INR j + 1 / 2) * harmonic_orbital kernel N j x.
Proof.
  intros omega k N j x Hk Hj. assert (E : forall y, harmonic_orbital k N j y = hfun k j y) by (intros; apply orbital_hfun; exact Hj).
  rewrite (Derive_n_ext _ _ 2 _ E), E. cbn [Derive_n].
  rewrite (Derive_ext (fun y => Derive (fun z => hfun k j z) y) (dhfun k j)) by (intros y; apply is_derive_unique, hfun_derive).
  rewrite (is_derive_unique _ _ _ (dhfun_derive k j x)). rewrite <- Hk. field.
Qed.
Print Assumptions C40_orbital_eigenfunction.

(** Local energy of the spin-1/2 determinant model: constant omega (nup^2 + ndown^2) / 2 off the nodes. *)
Theorem C40_local_energy : forall omega kernel nup n x, kernel ^ 2 = omega -> (nup <= n)%nat ->
  det nup (fun i j => harmonic_orbital kernel nup j (x i O)) <> 0 ->
  det (n - nup) (fun i j => harmonic_orbital kernel (n - nup) j (x (nup + i)%nat O)) <> 0 ->
  harmonic_local_energy_standard omega (harmonic_log_psi kernel nup n) n 1 x = Some (omega * (INR nup ^ 2 + INR (n - nup) ^ 2) / 2).
Proof.
  intros omega k nup n x Hk Hn Hu Hd. apply harmonic_energy; [assumption..|]. unfold hpsi.
  rewrite <- (det_orbitals k nup (fun i => x i O)), <- (det_orbitals k (n - nup) (fun i => x (nup + i)%nat O)).
  intros E. apply Rmult_integral in E. tauto.
Qed.
Print Assumptions C40_local_energy.

(** Three particles, two of the first spin, at 0, 1 and 0 with omega = 1: energy 5/2. *)
Example C40_example : let x := fun i (_ : nat) => INR (i mod 2) in
  harmonic_local_energy_standard 1 (harmonic_log_psi 1 2 3) 3 1 x = Some (5 / 2).
Proof.
  intros x. rewrite (C40_local_energy 1 1 2 3 x); [f_equal; simpl; field|ring|lia| |].
  - rewrite det_2. unfold x. cbn [Nat.modulo Nat.divmod fst snd Nat.sub INR]. unfold harmonic_orbital. cbn [make_hermite_polynomials Nat.eqb Nat.sub hermite_loop nth].
    intros E. pose proof (exp_pos (- ((1 * 0) ^ 2 / 2))) as P0. pose proof (exp_pos (- ((1 * 1) ^ 2 / 2))) as P1.
    pose proof (Rmult_lt_0_compat _ _ P0 P1). lra.
  - change (3 - 2)%nat with 1%nat. rewrite det_1. unfold harmonic_orbital. cbn [make_hermite_polynomials Nat.eqb nth]. rewrite Rmult_1_r.
    apply Rgt_not_eq, exp_pos.
Qed.

(** ** C41 *)
Theorem C41_exchange : forall (F : positions -> R) nup ndown x, (0 < nup)%nat -> (0 < ndown)%nat -> F x <> 0 ->
  local_spin_exchange (fun y => slog_of (F y)) nup ndown x =
  Fin (- (INR nup * INR ndown * (F (fun i => if Nat.eqb i 0 then x nup else if Nat.eqb i nup then x O else x i) / F x))).
Proof.
  intros F nup ndown x H1 H2 H0. rewrite spin_exchange_ratio by assumption. do 5 f_equal.
  apply functional_extensionality. intros i. unfold swapped_indices. destruct (Nat.eqb i 0); [reflexivity|]. destruct (Nat.eqb i nup); reflexivity.
Qed.
Print Assumptions C41_exchange.

Theorem C41_absent_species : forall slog nup ndown x, nup = O \/ ndown = O -> local_spin_exchange slog nup ndown x = Fin 0.
Proof.
  intros slog nup ndown x [-> | ->]; unfold local_spin_exchange; [reflexivity|]. rewrite Bool.orb_true_r. reflexivity.
Qed.
Print Assumptions C41_absent_species.

(** Estimator over walkers spread evenly over devices: S_z^2 + N/2 - nup ndown mean(F(swapped)/F). *)
Theorem C41_estimator : forall (F : positions -> R) nup ndown nan_safe walkers, (0 < nup)%nat -> (0 < ndown)%nat -> evenly walkers ->
  (forall x, In x (concat walkers) -> F x <> 0) ->
  spin_square_expectation (fun y => slog_of (F y)) nup ndown nan_safe walkers =
  Fin (((INR nup - INR ndown) / 2) ^ 2 + (INR nup + INR ndown) / 2 -
       INR nup * INR ndown * lmean (map (fun x => F (fun i => if Nat.eqb i 0 then x nup else if Nat.eqb i nup then x O else x i) / F x) (concat walkers))).
Proof.
  intros F nup ndown b w H1 H2 HE H0. unfold spin_square_expectation.
  set (r := fun x : positions => - (INR nup * INR ndown * (F (fun i => if Nat.eqb i 0 then x nup else if Nat.eqb i nup then x O else x i) / F x))).
  assert (E : map (map (local_spin_exchange (fun y => slog_of (F y)) nup ndown)) w = map (map Fin) (map (map r) w)).
  { rewrite map_map. apply map_ext_in. intros s Hs. rewrite map_map. apply map_ext_in. intros x Hx. apply C41_exchange; [assumption..|].
    apply H0. apply in_concat. exists s. split; assumption. }
  rewrite E, means_fin by (apply evenly_map; exact HE). cbn [xadd]. f_equal. rewrite <- concat_map. unfold r, lmean. rewrite !map_length.
  rewrite (lsum_map_ext_in _ (fun x => - (INR nup * INR ndown) * (F (fun i => if Nat.eqb i 0 then x nup else if Nat.eqb i nup then x O else x i) / F x))) by (intros; ring).
  rewrite lsum_map_scal.
  assert (HN : INR (length (concat w)) <> 0) by (apply not_0_INR; intros L; apply (evenly_concat_nonempty w HE); destruct (concat w); [reflexivity|discriminate]).
  match goal with |- _ + _ * ?a / ?n = _ - _ * (?b / ?m) => change b with a; change m with n; set (q := a); change n with (INR (length (concat w))) in * end.
  clearbody q. field. exact HN.
Qed.
Print Assumptions C41_estimator.

(** One electron of each spin: 0 for a wavefunction symmetric under the exchange, 2 for an antisymmetric one. *)
Theorem C41_singlet_triplet : forall (F : positions -> R) nan_safe walkers sigma, evenly walkers ->
  (forall x, In x (concat walkers) -> F x <> 0) -> (sigma = 1 \/ sigma = - 1) ->
  (forall x, F (fun i => if Nat.eqb i 0 then x 1%nat else if Nat.eqb i 1 then x O else x i) = sigma * F x) ->
  spin_square_expectation (fun y => slog_of (F y)) 1 1 nan_safe walkers = Fin (1 - sigma).
Proof.
  intros F b w sigma HE H0 Hs HF. rewrite C41_estimator by (try lia; assumption). f_equal.
  assert (M : lmean (map (fun x => F (fun i => if Nat.eqb i 0 then x 1%nat else if Nat.eqb i 1 then x O else x i) / F x) (concat w)) = sigma).
  { rewrite (map_ext_in _ (fun _ => sigma)) by (intros x Hx; rewrite HF; field; apply H0; exact Hx). unfold lmean. rewrite lsum_map_const, map_length. field.
    apply not_0_INR. intros L. apply (evenly_concat_nonempty w HE). destruct (concat w); [reflexivity|discriminate]. }
  rewrite M. simpl INR. field.
Qed.
Print Assumptions C41_singlet_triplet.

Example C41_example : let x := fun i (c : nat) => INR i in
  evenly [[x]; [x]] /\
  (forall y : positions, (fun z : positions => z O O * z 1%nat O) (fun i => if Nat.eqb i 0 then y 1%nat else if Nat.eqb i 1 then y O else y i) = 1 * (y O O * y 1%nat O)) /\
  (fun z : positions => z O O - z 1%nat O) x <> 0.
Proof.
  intros x. split; [exists 1%nat; split; [lia|]; split; [discriminate|]; intros s [<-|[<-|[]]]; reflexivity|]. split; [intros y; cbn; ring|].
  unfold x. simpl. lra.
Qed.
