(** * Properties C68-C70: the local energy a job is configured with *)
From Coq Require Import Reals String List Arith Bool Lra Lia Permutation FunctionalExtensionality.
From Coquelicot Require Import Coquelicot.
From Verif Require Import XReal Rsum M_stats M_distribute M_energy M_physics M_setup S_energy S_physics S_setup
  P_distribute P_stats P_unbiased P_xsum P_orders P_kinetic P_potential P_ibp P_spin P_energy P_grad T_physics P_setup P_setup2.
Import ListNotations.
Local Open Scope R_scope.
Local Open Scope string_scope.

(** A molecule's Hamiltonian and ordinary points, from its fields. *)
Notation ham m := (hamiltonian (mol_d m) (mol_nion m) (mol_locs m) (mol_charges m) (mol_ei_softening m) (mol_ee_softening m) (mol_nelec m)).
Notation ordinary_point m := (ordinary (mol_d m) (mol_nion m) (mol_locs m) (mol_ei_softening m) (mol_ee_softening m) (mol_nelec m)).

(** ** C68 *)
(** "standard": the local energy is (H psi)(x) / psi(x), whatever else is configured. *)
Theorem C68_standard : forall m c (psi : positions -> R), ec_type c = "standard" ->
  exists f, assemble_mol_local_energy_fn m c (fun y => ln (Rabs (psi y))) = Some (Plain f) /\
    forall x, ordinary_point m psi x -> f x = Some (Fin (ham m psi x / psi x)).
Proof.
  intros m c psi E. unfold assemble_mol_local_energy_fn. rewrite E. cbn [String.eqb Ascii.eqb Bool.eqb]. eexists. split; [reflexivity|].
  intros x (A & B & C & D & F & G). apply standard_value; assumption.
Qed.
Print Assumptions C68_standard.

Lemma part_in_spec part parts : part_in part parts = true <-> In part parts.
Proof.
  unfold part_in. rewrite existsb_exists. split.
  - intros (q & Hq & E). apply String.eqb_eq in E. subst. assumption.
  - intros H. exists part. split; [assumption|apply String.eqb_refl].
Qed.
Lemma part_in_false part parts : ~ In part parts -> part_in part parts = false.
Proof. intros H. destruct (part_in part parts) eqn:E; [apply part_in_spec in E; contradiction|reflexivity]. Qed.

(** "random_particle" in three dimensions with 1 <= nparticles <= number of electrons, any list of
    sampled parts: averaged over the electron orders it is (H psi)(x) / psi(x); if all electrons are
    sampled, or nothing recognisable is listed as sampled, it is that number for every single order. *)
Theorem C68_random_particle : forall m c (psi : positions -> R), ec_type c = "random_particle" ->
  exists f, assemble_mol_local_energy_fn m c (fun y => ln (Rabs (psi y))) = Some (Keyed f) /\
    forall x, ordinary_point m psi x ->
    (mol_d m = 3%nat -> (1 <= ec_nparticles c <= mol_nelec m)%nat ->
     average_over_orders (mol_nelec m) (fun s => toR (f x s)) = ham m psi x / psi x /\
     (ec_nparticles c = mol_nelec m -> forall s, renumbering (mol_nelec m) s -> f x s = Some (Fin (ham m psi x / psi x)))) /\
    (~ In "kinetic" (ec_sample_parts c) -> ~ In "ei" (ec_sample_parts c) -> ~ In "ee" (ec_sample_parts c) ->
     forall s, renumbering (mol_nelec m) s -> f x s = Some (Fin (ham m psi x / psi x))).
Proof.
  intros m c psi E. unfold assemble_mol_local_energy_fn. rewrite E. cbn [String.eqb Ascii.eqb Bool.eqb]. eexists. split; [reflexivity|].
  intros x (A & B & C & D & F & G). assert (RL : reads (mol_nelec m) (mol_d m) (fun y => ln (Rabs (psi y)))).
  { intros y z H. rewrite (A y z H). reflexivity. }
  pose proof (standard_value _ _ _ (mol_charges m) _ _ _ _ _ A B C D F G) as SV. split.
  - intros Hd Hk. rewrite Hd in *. split.
    + rewrite C36_local_energy_unbiased by assumption. rewrite SV. reflexivity.
    + intros Hn s Hs. rewrite Hn. rewrite random_particle_all by (try assumption; lia). exact SV.
  - intros H1 H2 H3 s Hs. rewrite (part_in_false _ _ H1), (part_in_false _ _ H2), (part_in_false _ _ H3).
    rewrite random_particle_none by assumption. exact SV.
Qed.
Print Assumptions C68_random_particle.

(** "ibp": with the listed parts integrated by parts (without softening, in three dimensions, where the
    Coulomb parts are concerned) psi^2 times the local energy differs from psi * H psi by a divergence,
    the derivative of psi^2 dU - 1/2 psi dpsi with U the sum of cones; if nothing recognisable is listed it is exactly
    (H psi)(x) / psi(x). *)
Theorem C68_ibp : forall m c (psi : positions -> R), ec_type c = "ibp" ->
  let bk := part_in "kinetic" (ec_ibp_parts c) in let bei := part_in "ei" (ec_ibp_parts c) in let bee := part_in "ee" (ec_ibp_parts c) in
  let U := cone (mol_d m) (mol_nion m) (mol_locs m) (mol_charges m) bei bee (mol_nelec m) in
  let field i cc y := psi y ^ 2 * partial U y i cc - (if bk then 1 / 2 * (psi y * partial psi y i cc) else 0) in
  exists f, assemble_mol_local_energy_fn m c (fun y => ln (Rabs (psi y))) = Some (Plain f) /\
    forall x, ordinary_point m psi x ->
    ((In "ei" (ec_ibp_parts c) -> mol_d m = 3%nat /\ mol_ei_softening m = 0) ->
     (In "ee" (ec_ibp_parts c) -> mol_d m = 3%nat /\ mol_ee_softening m = 0) ->
     exists e, f x = Some (Fin e) /\
       psi x ^ 2 * (ham m psi x / psi x - e) = sum_coordinates (mol_nelec m) (mol_d m) (fun i cc => partial (field i cc) x i cc)) /\
    (~ In "kinetic" (ec_ibp_parts c) -> ~ In "ei" (ec_ibp_parts c) -> ~ In "ee" (ec_ibp_parts c) ->
     f x = Some (Fin (ham m psi x / psi x))).
Proof.
  intros m c psi E bk bei bee U field. unfold assemble_mol_local_energy_fn. rewrite E. cbn [String.eqb Ascii.eqb Bool.eqb]. eexists. split; [reflexivity|].
  intros x (A & B & C & D & F & G). pose proof (standard_value _ _ _ (mol_charges m) _ _ _ _ _ A B C D F G) as SV. split.
  - intros H1 H2. fold bk bei bee.
    destruct (C38_divergence (mol_d m) (mol_nion m) (mol_locs m) (mol_charges m) bk bei (mol_ei_softening m) bee (mol_ee_softening m) (mol_nelec m) x psi) as (e1 & e2 & X & Y & W);
      try assumption.
    + intros [H|H]; apply part_in_spec in H; [apply H1|apply H2]; assumption.
    + intros H. apply part_in_spec in H. apply H1. assumption.
    + intros H. apply part_in_spec in H. apply H2. assumption.
    + rewrite X in SV. injection SV as SV. exists e2. split; [exact Y|]. rewrite <- SV. cbv zeta in W. rewrite ibp_U_cone in W.
      * exact W.
      * intros H. apply part_in_spec in H. apply H1. assumption.
      * intros H. apply part_in_spec in H. apply H2. assumption.
  - intros H1 H2 H3. unfold bk, bei, bee in *. rewrite (part_in_false _ _ H1), (part_in_false _ _ H2), (part_in_false _ _ H3).
    rewrite ibp_nothing. exact SV.
Qed.
Print Assumptions C68_ibp.

(** Which configurations are rejected: exactly the unsupported types, and sampling zero particles. *)
Theorem C68_errors : forall P K perm_of split_n log_psi dlog_psi dle m c (p : P) (keys : list K) pos,
  (assemble_mol_local_energy_fn m c (log_psi p) = None <->
   ec_type c <> "standard" /\ ec_type c <> "ibp" /\ ec_type c <> "random_particle") /\
  (assemble_mol_local_energy_fn m c (log_psi p) = None ->
   molecule_val_and_grad perm_of split_n log_psi dlog_psi dle m c p keys pos = Err BadLocalEnergyType) /\
  (forall f, assemble_mol_local_energy_fn m c (log_psi p) = Some f ->
   (traces f = false <-> ec_type c = "random_particle" /\ ec_nparticles c = O /\
      (In "kinetic" (ec_sample_parts c) \/ In "ei" (ec_sample_parts c) \/ In "ee" (ec_sample_parts c))) /\
   (traces f = false -> molecule_val_and_grad perm_of split_n log_psi dlog_psi dle m c p keys pos = Err ZeroDivision) /\
   (traces f = true -> match f with
      | Plain f => forall x, f x <> None
      | Keyed f => forall x s, f x s <> None end)).
Proof.
  intros P K perm_of split_n log_psi dlog_psi dle m c p keys pos. unfold molecule_val_and_grad, assemble_mol_local_energy_fn.
  destruct (String.eqb_spec (ec_type c) "standard") as [E1|E1].
  { split; [split; [discriminate|intros (H & _); contradiction]|]. split; [discriminate|]. intros f [= <-].
    unfold traces at 1. pose proof (molecular_traces (log_psi p) (mol_d m) (mol_nion m) (mol_locs m) (mol_charges m) (mol_ei_softening m) (mol_ee_softening m) (mol_nelec m)) as T.
    destruct (molecular_local_energy _ _ _ _ _ _ _ _ (fun _ _ => 0)) as [w|] eqn:Q; [|exfalso; eapply T; exact Q].
    split; [split; [discriminate|intros (H & _); rewrite E1 in H; discriminate]|].
    unfold traces. rewrite Q. split; [discriminate|]. intros _ x. apply T. }
  destruct (String.eqb_spec (ec_type c) "ibp") as [E2|E2].
  { split; [split; [discriminate|intros (_ & H & _); contradiction]|]. split; [discriminate|]. intros f [= <-].
    set (bk := part_in "kinetic" _). set (bei := part_in "ei" _). set (bee := part_in "ee" _).
    unfold traces at 1. pose proof (ibp_traces (log_psi p) (mol_d m) (mol_nion m) (mol_locs m) (mol_charges m) bk bei (mol_ei_softening m) bee (mol_ee_softening m) (mol_nelec m)) as T.
    destruct (ibp_local_energy _ _ _ _ _ _ _ _ _ _ _ (fun _ _ => 0)) as [w|] eqn:Q; [|exfalso; eapply T; exact Q].
    split; [split; [discriminate|intros (H & _); rewrite E2 in H; discriminate]|].
    unfold traces. rewrite Q. split; [discriminate|]. intros _ x. apply T. }
  destruct (String.eqb_spec (ec_type c) "random_particle") as [E3|E3].
  2: { split; [split; [auto|reflexivity]|]. split; [reflexivity|discriminate]. }
  split; [split; [discriminate|intros (_ & _ & H); contradiction]|]. split; [discriminate|]. intros f [= <-].
  pose proof (part_in_spec "kinetic" (ec_sample_parts c)) as B1. pose proof (part_in_spec "ei" (ec_sample_parts c)) as B2.
  pose proof (part_in_spec "ee" (ec_sample_parts c)) as B3.
  set (bk := part_in "kinetic" _) in *. set (bei := part_in "ei" _) in *. set (bee := part_in "ee" _) in *.
  pose proof (random_traces (log_psi p) (mol_d m) (mol_nion m) (mol_locs m) (mol_charges m) (ec_nparticles c) bk bei bee (mol_ei_softening m) (mol_ee_softening m) (mol_nelec m)) as T.
  unfold traces. destruct (random_particle_local_energy _ _ _ _ _ _ _ _ _ _ _ _ (fun _ _ => 0) (fun i => i)) as [w|] eqn:Q.
  - split; [|split; [discriminate|]].
    + split; [discriminate|]. intros (_ & H0 & H). exfalso.
      assert (N : Some w = None); [|discriminate]. rewrite <- Q. apply T. split; [assumption|].
      rewrite !orb_true_iff, B1, B2, B3. tauto.
    + intros _ y s H. apply T in H. destruct H as [H0 H]. assert (N : Some w = None); [|discriminate]. rewrite <- Q. apply T. auto.
  - split; [|split; [reflexivity|discriminate]]. split; [|reflexivity]. intros _. apply T in Q. destruct Q as [H0 H].
    rewrite !orb_true_iff, B1, B2, B3 in H. tauto.
Qed.
Print Assumptions C68_errors.

(** A part name the program does not know is not rejected (although an unknown type is): listing
    "Kinetic" silently leaves the kinetic energy as it is. *)
Theorem C68_unknown_parts_refuted :
  ~ (forall m c log_psi, ec_type c = "ibp" ->
       (exists part, In part (ec_ibp_parts c) /\ part <> "kinetic" /\ part <> "ei" /\ part <> "ee") ->
       assemble_mol_local_energy_fn m c log_psi = None) /\
  (forall m c c' log_psi, ec_type c = "ibp" -> ec_type c' = "standard" ->
     (forall part, In part (ec_ibp_parts c) -> part <> "kinetic" /\ part <> "ei" /\ part <> "ee") ->
     exists f f', assemble_mol_local_energy_fn m c log_psi = Some (Plain f) /\ assemble_mol_local_energy_fn m c' log_psi = Some (Plain f') /\
       forall x, f x = f' x).
Proof.
  split.
  - intros H.
    specialize (H {| mol_d := 3; mol_nion := 0; mol_nelec := 1; mol_locs := fun _ _ => 0; mol_charges := fun _ => 0; mol_ei_softening := 0; mol_ee_softening := 0 |}
      {| ec_type := "ibp"; ec_ibp_parts := ["Kinetic"]; ec_sample_parts := []; ec_nparticles := 1; ec_clip_threshold := 0; ec_clip_center := "mean"; ec_nan_safe := false; ec_nchains := 2 |}
      (fun _ => 0) eq_refl). discriminate H. exists "Kinetic". split; [left; reflexivity|]. repeat split; discriminate.
  - intros m c c' f E E' H. unfold assemble_mol_local_energy_fn. rewrite E, E'. cbn [String.eqb Ascii.eqb Bool.eqb].
    eexists _, _. split; [reflexivity|]. split; [reflexivity|]. intros x.
    rewrite !part_in_false by (intros Hin; apply H in Hin; tauto). apply ibp_nothing.
Qed.
Print Assumptions C68_unknown_parts_refuted.

(** The hydrogen atom, electron at distance 2 from the proton: an ordinary point. *)
Example C68_example : let m := {| mol_d := 3; mol_nion := 1; mol_nelec := 1; mol_locs := fun _ _ => 0; mol_charges := fun _ => 1; mol_ei_softening := 0; mol_ee_softening := 0 |} in
  forall x, distance 3 (x O) (fun _ => 0) <> 0 -> ordinary_point m hydrogen_psi x /\ ham m hydrogen_psi x = - (1 / 2) * hydrogen_psi x.
Proof.
  intros m x Hr. split; [|apply hydrogen_eigen; assumption]. split; [apply hydrogen_reads|]. split; [apply Rgt_not_eq, exp_pos|].
  split; [apply hydrogen_smooth; assumption|]. split; [apply hydrogen_no_ion; assumption|]. split; apply hydrogen_no_coincidence.
Qed.

(** ** C69 *)
(** If all walkers have the same finite local energy, the energy is that number, all variances and the
    gradient are 0. *)
Lemma constant_energies (P : Type) (log_psi : P -> positions -> R) dlog_psi c (p : P) (pos : list (list positions)) (E : R) noclip :
  (ec_clip_center c = "mean" \/ ec_clip_center c = "median") ->
  evenly pos -> ec_nchains c = length (concat pos) -> (2 <= ec_nchains c)%nat ->
  noclip = map (map (fun _ => Fin E)) pos ->
  exists aux g, get_standard_contribution (fun p x => Fin (log_psi p x)) (fun p x j => Fin (dlog_psi p x j)) (ec_nchains c) (ec_nan_safe c)
      (get_clipping_fn (ec_clip_threshold c) (ec_clip_center c)) noclip p pos = Ok (aux, Fin E, g) /\
    variance aux = Fin 0 /\ energy_noclip aux = Fin E /\ variance_noclip aux = Fin 0 /\ forall j, grad_mean (g j) = Fin 0.
Proof.
  intros HC HE Hn H2 ->. set (ss := map (map (fun _ : positions => E)) pos).
  assert (EQ : map (map (fun _ : positions => Fin E)) pos = map (map Fin) ss).
  { unfold ss. rewrite map_map. apply map_ext. intros s. rewrite map_map. reflexivity. }
  assert (Hall : forall v, In v (concat ss) -> v = E).
  { intros v Hv. unfold ss in Hv. rewrite <- concat_map in Hv. apply in_map_iff in Hv. destruct Hv as (? & <- & _). reflexivity. }
  assert (HL : length (concat ss) = ec_nchains c) by (unfold ss; rewrite <- concat_map, map_length; auto).
  assert (Hne : concat ss <> []) by (intros X; rewrite X in HL; simpl in HL; lia).
  assert (HV : evenly ss) by (apply evenly_map; assumption).
  destruct (standard_contribution_fin (fun p x => Fin (log_psi p x)) (fun p x j => Fin (dlog_psi p x j)) p pos (log_psi p) (dlog_psi p)
    (fun _ _ => eq_refl) (fun _ _ _ => eq_refl) (get_clipping_fn (ec_clip_threshold c) (ec_clip_center c)) (ec_nchains c) (ec_nan_safe c) ss ss)
    as (aux & g & H1 & H3 & H4 & H5 & H6); try assumption; auto.
  - unfold ss. clear. induction pos; simpl; constructor; [apply map_length|assumption].
  - rewrite (lmean_const _ E Hne Hall). destruct HV as (k & Hk & _ & Hlen).
    enough (G : forall l, incl l ss -> Forall2 (clips (get_clipping_fn (ec_clip_threshold c) (ec_clip_center c)) E) l l) by (apply G, incl_refl).
    induction l as [|s l IH]; intros HI; [constructor|]. assert (Hs : In s ss) by (apply HI; left; reflexivity).
    constructor; [|apply IH; intros z Hz; apply HI; right; assumption].
    apply (clip_const _ _ E s E); [|unfold centre_ok; destruct HC as [-> | ->]; reflexivity|reflexivity|].
    + intros X. specialize (Hlen s Hs). rewrite X in Hlen. simpl in Hlen. lia.
    + intros v Hv. apply Hall. apply in_concat. eauto.
  - exists aux, g. rewrite EQ. rewrite (lmean_const _ E Hne Hall) in H1, H4. rewrite (lvar_const _ E) in H3, H5 by (assumption || lia).
    split; [exact H1|]. split; [exact H3|]. split; [exact H4|]. split; [exact H5|]. intros j. rewrite H6, (lcov_const _ _ E Hne Hall). f_equal. ring.
Qed.

(** Zero variance: walkers at ordinary points where the wavefunction solves the Schroedinger equation with
    energy E.  The reported energy is E exactly, the variances with and without clipping are 0 and so is
    the gradient in every parameter - for every number and distribution of walkers, every clipping
    threshold and NaN handling. *)
Theorem C69_zero_variance : forall P K perm_of split_n (log_psi : P -> positions -> R) dlog_psi dle m c (p : P) (keys : list K) pos psi E,
  ec_type c = "standard" -> (ec_clip_center c = "mean" \/ ec_clip_center c = "median") ->
  evenly pos -> ec_nchains c = length (concat pos) -> (2 <= ec_nchains c)%nat ->
  (forall y, log_psi p y = ln (Rabs (psi y))) ->
  (forall x, In x (concat pos) -> ordinary_point m psi x /\ ham m psi x = E * psi x) ->
  exists aux g, molecule_val_and_grad perm_of split_n log_psi dlog_psi dle m c p keys pos = Ok (aux, Fin E, g) /\
    variance aux = Fin 0 /\ energy_noclip aux = Fin E /\ variance_noclip aux = Fin 0 /\ forall j, grad_mean (g j) = Fin 0.
Proof.
  intros P K perm_of split_n log_psi dlog_psi dle m c p keys pos psi E HT HC HE Hn H2 HL HX.
  destruct (C68_errors P K perm_of split_n log_psi dlog_psi dle m c p keys pos) as (_ & _ & TR).
  unfold molecule_val_and_grad. replace (log_psi p) with (fun y => ln (Rabs (psi y))) in * by (apply functional_extensionality; intros; auto).
  destruct (C68_standard m c psi HT) as (f & Ef & Vf). rewrite Ef. specialize (TR _ Ef).
  destruct (traces (Plain f)) eqn:ET; [|destruct TR as ((TR & _) & _); destruct (TR eq_refl) as (H & _); rewrite HT in H; discriminate].
  unfold energy_val_and_grad. rewrite HT. cbn [String.eqb Ascii.eqb Bool.eqb].
  apply constant_energies; try assumption.
  apply map_ext_in. intros s Hs. apply map_ext_in. intros x Hx. assert (Hin : In x (concat pos)) by (apply in_concat; eauto).
  destruct (HX x Hin) as [Ho He]. unfold call. rewrite (Vf x Ho), He. destruct Ho as (_ & H0 & _). f_equal. field. assumption.
Qed.
Print Assumptions C69_zero_variance.

(** The same with random particles when all electrons are sampled (or none): the draws do not matter. *)
Theorem C69_random_particle : forall P K perm_of split_n (log_psi : P -> positions -> R) dlog_psi dle m c (p : P) (keys : list K) pos psi E,
  ec_type c = "random_particle" -> mol_d m = 3%nat -> (1 <= mol_nelec m)%nat -> ec_nparticles c = mol_nelec m ->
  (ec_clip_center c = "mean" \/ ec_clip_center c = "median") ->
  evenly pos -> ec_nchains c = length (concat pos) -> (2 <= ec_nchains c)%nat ->
  length keys = length pos -> (forall k n, length (split_n k n) = n) -> (forall k, renumbering (mol_nelec m) (perm_of k)) ->
  (forall y, log_psi p y = ln (Rabs (psi y))) ->
  (forall x, In x (concat pos) -> ordinary_point m psi x /\ ham m psi x = E * psi x) ->
  exists aux g, molecule_val_and_grad perm_of split_n log_psi dlog_psi dle m c p keys pos = Ok (aux, Fin E, g) /\
    variance aux = Fin 0 /\ energy_noclip aux = Fin E /\ variance_noclip aux = Fin 0 /\ forall j, grad_mean (g j) = Fin 0.
Proof.
  intros P K perm_of split_n log_psi dlog_psi dle m c p keys pos psi E HT Hd Hn1 Hk HC HE Hn H2 HK HS HP HL HX.
  destruct (C68_errors P K perm_of split_n log_psi dlog_psi dle m c p keys pos) as (_ & _ & TR).
  unfold molecule_val_and_grad. replace (log_psi p) with (fun y => ln (Rabs (psi y))) in * by (apply functional_extensionality; intros; auto).
  destruct (C68_random_particle m c psi HT) as (f & Ef & Vf). rewrite Ef. specialize (TR _ Ef).
  destruct (traces (Keyed f)) eqn:ET; [|destruct TR as ((TR & _) & _); destruct (TR eq_refl) as (_ & H & _); lia].
  unfold energy_val_and_grad. rewrite HT. cbn [String.eqb Ascii.eqb Bool.eqb].
  apply constant_energies; try assumption.
  assert (HX' : forall x k, In x (concat pos) -> call perm_of (Keyed f) x (Some k) = Fin E).
  { intros x k Hin. destruct (HX x Hin) as [Ho He]. unfold call. destruct (Vf x Ho) as (V & _).
    destruct (V Hd ltac:(lia)) as (_ & V'). rewrite (V' Hk _ (HP k)), He. destruct Ho as (_ & H0 & _). f_equal. field. assumption. }
  clear - HX' HK HS. revert keys HK HX'. induction pos as [|s pos IH]; intros [|k keys] HK HX'; try discriminate; [reflexivity|].
  cbn [combine map fst snd]. f_equal.
  - assert (HX2 : forall x k, In x s -> call perm_of (Keyed f) x (Some k) = Fin E) by (intros; apply HX'; cbn [concat]; apply in_or_app; auto).
    specialize (HS k (@length positions s)). revert HS HX2. generalize (split_n k (@length positions s)) as ks. clear. induction s as [|x s IH]; intros [|k1 ks] HS HX2; try discriminate; [reflexivity|].
    cbn [M_mcmc.zipw map]. f_equal; [apply HX2; left; reflexivity|]. apply IH; [simpl in HS; lia|]. intros; apply HX2; right; assumption.
  - apply IH; [simpl in HK; lia|]. intros; apply HX'. cbn [concat]. apply in_or_app. auto.
Qed.
Print Assumptions C69_random_particle.

(** Two hydrogen atoms' worth of walkers: hypotheses met, any clipping. *)
Definition hydrogen := {| mol_d := 3; mol_nion := 1; mol_nelec := 1; mol_locs := fun _ _ => 0; mol_charges := fun _ => 1; mol_ei_softening := 0; mol_ee_softening := 0 |}.
Definition at_distance (r : R) : positions := fun _ cc => if Nat.eqb cc 0 then r else 0.
Lemma at_distance_distance r : 0 < r -> distance 3 (at_distance r O) (fun _ => 0) = r.
Proof.
  intros Hr. unfold distance, at_distance. cbn [Rsum Nat.eqb]. replace (0 + (r - 0) ^ 2 + (0 - 0) ^ 2 + (0 - 0) ^ 2) with (r ^ 2) by ring. apply sqrt_pow2. lra.
Qed.
Example C69_example : exists aux g,
  molecule_val_and_grad (K := unit) (fun _ i => i) (fun k n => repeat k n) (fun (_ : unit) y => ln (Rabs (hydrogen_psi y))) (fun _ y j => y O j) (fun _ _ _ => Fin 0)
    hydrogen {| ec_type := "standard"; ec_ibp_parts := []; ec_sample_parts := []; ec_nparticles := 1; ec_clip_threshold := 5; ec_clip_center := "median"; ec_nan_safe := true; ec_nchains := 4 |}
    tt [tt; tt] [[at_distance 1; at_distance 2]; [at_distance 3; at_distance 4]] = Ok (aux, Fin (- (1 / 2)), g) /\ grad_mean (g O) = Fin 0.
Proof.
  destruct (C69_zero_variance unit unit (fun _ i => i) (fun k n => repeat k n) (fun (_ : unit) y => ln (Rabs (hydrogen_psi y))) (fun _ y j => y O j) (fun _ _ _ => Fin 0)
    hydrogen {| ec_type := "standard"; ec_ibp_parts := []; ec_sample_parts := []; ec_nparticles := 1; ec_clip_threshold := 5; ec_clip_center := "median"; ec_nan_safe := true; ec_nchains := 4 |}
    tt [tt; tt] [[at_distance 1; at_distance 2]; [at_distance 3; at_distance 4]] hydrogen_psi (- (1 / 2))) as (aux & g & H1 & _ & _ & _ & H2); auto.
  - exists 2%nat. split; [lia|]. split; [discriminate|]. intros s [<-|[<-|[]]]; reflexivity.
  - cbn. lia.
  - intros x Hx. apply C68_example. cbn in Hx. destruct Hx as [<-|[<-|[<-|[<-|[]]]]]; rewrite at_distance_distance by lra; lra.
  - exists aux, g. auto.
Qed.

(** Integrating the kinetic energy by parts gives this up: the exact hydrogen ground state then has a
    non-zero reported variance. *)
Theorem C69_ibp_refuted : ~ (forall K perm_of split_n (log_psi : unit -> positions -> R) dlog_psi dle m c (keys : list K) pos psi E aux e g,
  ec_type c = "ibp" -> (ec_clip_center c = "mean" \/ ec_clip_center c = "median") ->
  evenly pos -> ec_nchains c = length (concat pos) -> (2 <= ec_nchains c)%nat ->
  (forall y, log_psi tt y = ln (Rabs (psi y))) ->
  (forall x, In x (concat pos) -> ordinary_point m psi x /\ ham m psi x = E * psi x) ->
  molecule_val_and_grad perm_of split_n log_psi dlog_psi dle m c tt keys pos = Ok (aux, e, g) ->
  variance aux = Fin 0).
Proof.
  intros H.
  set (c := {| ec_type := "ibp"; ec_ibp_parts := ["kinetic"]; ec_sample_parts := []; ec_nparticles := 1; ec_clip_threshold := 0; ec_clip_center := "mean"; ec_nan_safe := false; ec_nchains := 2 |}).
  set (pos := [[at_distance 1; at_distance 2]]).
  assert (V : exists aux e g, molecule_val_and_grad (K := unit) (fun _ i => i) (fun k n => repeat k n) (fun (_ : unit) y => ln (Rabs (hydrogen_psi y))) (fun _ y j => 0) (fun _ _ _ => Fin 0)
      hydrogen c tt [tt] pos = Ok (aux, e, g) /\ variance aux = Fin (1 / 8)).
  { unfold molecule_val_and_grad. destruct (assemble_mol_local_energy_fn hydrogen c (fun y => ln (Rabs (hydrogen_psi y)))) as [f|] eqn:Ef; [|discriminate].
    destruct (C68_errors unit unit (fun _ i => i) (fun k n => repeat k n) (fun (_ : unit) y => ln (Rabs (hydrogen_psi y))) (fun _ y j => 0) (fun _ _ _ => Fin 0) hydrogen c tt [tt] pos) as (_ & _ & TR).
    specialize (TR f Ef). destruct (traces f) eqn:ET; [|destruct TR as ((TR & _) & _); destruct (TR eq_refl) as (X & _); discriminate X].
    injection Ef as <-. unfold energy_val_and_grad. cbn [ec_type c String.eqb Ascii.eqb Bool.eqb].
    assert (E : map (map (fun x => call (fun (_ : unit) i => i) (Plain (ibp_local_energy (fun y : positions => ln (Rabs (hydrogen_psi y))) 3 1
                  (fun _ _ : nat => 0) (fun _ : nat => 1) true false 0 false 0 1)) x None)) pos = map (map Fin) [[- (1 / 2); 0]]).
    { unfold pos, call. cbn [map].
      rewrite !hydrogen_ibp by (rewrite at_distance_distance by lra; lra). rewrite !at_distance_distance by lra. repeat f_equal; lra. }
    rewrite E.
    destruct (standard_contribution_fin (fun (_ : unit) y => Fin (ln (Rabs (hydrogen_psi y)))) (fun _ y j => Fin 0) tt pos (fun y => ln (Rabs (hydrogen_psi y))) (fun _ _ => 0)
      (fun _ _ => eq_refl) (fun _ _ _ => eq_refl) None 2%nat false [[- (1 / 2); 0]] [[- (1 / 2); 0]]) as (aux & g & H1 & H3 & _).
    - exists 2%nat. split; [lia|]. split; [discriminate|]. intros s [<-|[]]; reflexivity.
    - repeat constructor.
    - reflexivity.
    - lia.
    - repeat constructor.
    - change (ec_nchains c) with 2%nat. change (ec_nan_safe c) with false. rewrite H1. eexists aux, _, _. split; [reflexivity|]. rewrite H3. f_equal.
      unfold lvar, lmean, lsum. simpl. field. }
  destruct V as (aux & e & g & V1 & V2).
  specialize (H unit (fun _ i => i) (fun k n => repeat k n) (fun (_ : unit) y => ln (Rabs (hydrogen_psi y))) (fun _ y j => 0) (fun _ _ _ => Fin 0)
    hydrogen c [tt] pos hydrogen_psi (- (1 / 2)) aux e g eq_refl (or_introl eq_refl)).
  rewrite V2 in H. assert (X : Fin (1 / 8) = Fin 0); [|injection X; lra]. apply H; auto.
  - exists 2%nat. split; [lia|]. split; [discriminate|]. intros s [<-|[]]; reflexivity.
  - intros x Hx. apply C68_example. cbn in Hx. destruct Hx as [<-|[<-|[]]]; rewrite at_distance_distance by lra; lra.
Qed.
Print Assumptions C69_ibp_refuted.

(** ** C70 *)
(** Renumbering electrons does not change the local energy, whatever its type, if it does not change
    log|psi| (like electrons of an antisymmetric wavefunction).  For random particles the renumbered
    walker's value for one draw is the original walker's value for the renumbered draw. *)
Theorem C70_like_electrons : forall m c log_psi s x, reads (mol_nelec m) (mol_d m) log_psi -> renumbering (mol_nelec m) s ->
  (forall y, log_psi (fun i => y (s i)) = log_psi y) ->
  match assemble_mol_local_energy_fn m c log_psi with
  | None => True
  | Some (Plain f) => f (fun i => x (s i)) = f x
  | Some (Keyed f) => forall perm, renumbering (mol_nelec m) perm -> f (fun i => x (s i)) perm = f x (fun i => s (perm i))
  end.
Proof.
  intros m c f s x HR Hs Hsym. unfold assemble_mol_local_energy_fn.
  destruct (String.eqb _ "standard"); [apply molecular_relabel; assumption|].
  destruct (String.eqb _ "ibp"); [apply ibp_relabel; assumption|].
  destruct (String.eqb _ "random_particle"); [|exact Logic.I].
  intros perm Hp. apply random_relabel; assumption.
Qed.
Print Assumptions C70_like_electrons.

(** Moving the ions, the electrons and the wavefunction by the same vector changes nothing. *)
Theorem C70_translation : forall m c log_psi (v : nat -> R) x, reads (mol_nelec m) (mol_d m) log_psi ->
  let moved (y : positions) : positions := fun i cc => y i cc + v cc in
  let moved_molecule := {| mol_d := mol_d m; mol_nion := mol_nion m; mol_nelec := mol_nelec m; mol_locs := moved (mol_locs m);
                           mol_charges := mol_charges m; mol_ei_softening := mol_ei_softening m; mol_ee_softening := mol_ee_softening m |} in
  let moved_log_psi (y : positions) := log_psi (fun i cc => y i cc - v cc) in
  match assemble_mol_local_energy_fn m c log_psi, assemble_mol_local_energy_fn moved_molecule c moved_log_psi with
  | Some (Plain f), Some (Plain f') => f' (moved x) = f x
  | Some (Keyed f), Some (Keyed f') => forall perm, renumbering (mol_nelec m) perm -> f' (moved x) perm = f x perm
  | None, None => True
  | _, _ => False
  end.
Proof.
  intros m c f v x HR moved mm mf. unfold assemble_mol_local_energy_fn, mm. cbn [mol_d mol_nion mol_locs mol_charges mol_ei_softening mol_ee_softening mol_nelec].
  destruct (String.eqb _ "standard"); [apply molecular_shift; assumption|].
  destruct (String.eqb _ "ibp"); [apply ibp_shift; assumption|].
  destruct (String.eqb _ "random_particle"); [|exact Logic.I].
  intros perm Hp. apply random_shift; assumption.
Qed.
Print Assumptions C70_translation.

(** Two electrons, log|psi| = - (|x1| + |x2|)^2 in one coordinate: symmetric under the exchange. *)
Example C70_example : let f := fun y : positions => - (Rabs (y O O) + Rabs (y 1%nat O)) ^ 2 in let s := fun i => match i with O => 1%nat | 1%nat => O | _ => i end in
  reads 2 1 f /\ renumbering 2 s /\ forall y, f (fun i => y (s i)) = f y.
Proof.
  intros f s. split; [|split].
  - intros y z H. unfold f. rewrite !H by lia. reflexivity.
  - unfold renumbering. simpl. apply perm_swap.
  - intros y. unfold f, s. ring.
Qed.
