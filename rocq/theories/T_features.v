(** * Values of input features, orbitals, Jastrow factors and determinant products: C73, and value theorems of C48, C50, C51, C54 *)
From Coq Require Import Reals List Arith Lia Lra.
From Verif Require Import XReal Rsum M_slog M_models M_antisym S_physics S_models S_antisym S_features P_slog P_split P_jastrow P_leibniz P_antieq P_features.
Import ListNotations.
Local Open Scope R_scope.

(** ** C54 *)
(** The one-electron features: for every ion the displacement and its softened length, in this order; the displacements are passed on too. *)
Theorem C54_ion_features : forall ions x s,
  compute_electron_ion (fin2 x) (Some (fin2 ions)) true (Fin s) =
  (Rows (map (fun a => concat (map (fun b => map Fin (minus a b ++ [soft_length s (edist a b)])) ions)) x),
   Some (map (fun a => map (fun b => map Fin (minus a b)) ions) x)).
Proof. exact ion_features. Qed.
Print Assumptions C54_ion_features.
(** The two-electron features of electrons i and j: displacement and softened distance, 0 on the diagonal whatever the softening. *)
Theorem C54_pair_features : forall x s i j, (i < length x)%nat -> (j < length x)%nat ->
  nth j (nth i (fst (compute_electron_electron (fin2 x) true (Fin s))) []) [] =
  map Fin (minus (nth i x []) (nth j x []) ++ [if Nat.eqb i j then 0 else soft_length s (edist (nth i x []) (nth j x []))]).
Proof. exact pair_features. Qed.
Print Assumptions C54_pair_features.
(** Softening: no softening is the plain length; a softened length vanishes at 0, grows strictly, and is smaller by at most s. *)
Theorem C54_softening : forall s r, 0 <= s -> 0 <= r ->
  soft_length 0 r = r /\ soft_length s 0 = 0 /\ r - s <= soft_length s r <= r /\ 0 <= soft_length s r /\ (forall r', r < r' -> soft_length s r < soft_length s r').
Proof.
  intros s r Hs Hr. destruct (soft_bounds s r Hs Hr) as (B & P). split; [apply soft_0; exact Hr|]. split; [apply soft_at_0; exact Hs|]. split; [exact B|]. split; [exact P|].
  intros r'. apply soft_incr. exact Hr.
Qed.
Print Assumptions C54_softening.
Example C54_values_example : compute_electron_ion (fin2 [[3; 4]]) (Some (fin2 [[0; 0]])) true (Fin 0) = (Rows [[Fin 3; Fin 4; Fin 5]], Some [[[Fin 3; Fin 4]]]) /\ soft_length 4 3 = 1.
Proof.
  split.
  - rewrite C54_ion_features. cbn [map concat app]. unfold minus, edist. cbn [combine map fst snd app]. rewrite soft_0 by apply sqrt_pos. unfold lsum. cbn [fold_right].
    replace ((3 - 0) ^ 2 + ((4 - 0) ^ 2 + 0)) with (5 * 5) by ring. rewrite sqrt_square by lra. rewrite !Rminus_0_r. reflexivity.
  - unfold soft_length. replace (3 ^ 2 + 4 ^ 2) with (5 * 5) by ring. rewrite sqrt_square by lra. lra.
Qed.

(** ** C50 *)
(** The one-body Jastrow factor: exp of minus |strength| times all electron-ion distances, or its logarithm. *)
Theorem C50_one_body_formula : forall k ions x,
  let J := - (Rabs k * lsum (map (fun a => lsum (map (edist a) ions)) x)) in
  one_body_exp_decay (Fin k) true (displacements (fin2 x) (fin2 ions)) = Fin J /\
  one_body_exp_decay (Fin k) false (displacements (fin2 x) (fin2 ions)) = Fin (exp J).
Proof. intros k ions x J. split; [exact (one_body_real k ions x true)|exact (one_body_real k ions x false)]. Qed.
Print Assumptions C50_one_body_formula.

(** ** C51 *)
(** Products of determinants in sign-log form and in log form: the sign-log form of the product of the (Leibniz) determinants, and its log. *)
Theorem C51_determinant_products : forall ms (orders : nat -> list (list nat)), ms <> [] -> Forall (fun m => square_of (length m) m) ms ->
  (forall n, all_orders n (orders n)) ->
  let D := product (map (fun m => leibniz (length m) m (orders (length m))) ms) in
  slogdet_product (map fin2 ms) = Some (array_to_slog (Fin D)) /\
  logdet_product (map fin2 ms) = Some (if Req_EM_T D 0 then MInf else Fin (ln (Rabs D))).
Proof.
  intros ms orders Ne F A D. destruct (products_fin2 ms Ne F) as (E1 & E2).
  assert (E : product (map (fun m => Det.det (length m) (entry m)) ms) = D).
  { unfold D. f_equal. apply map_ext. intros m. symmetry. apply leibniz_det. apply A. }
  rewrite E in E1, E2. split; [rewrite E1, to_slog_fin; reflexivity|exact E2].
Qed.
Print Assumptions C51_determinant_products.

(** ** C48 *)
(** Multiplying the outputs by equivariant features: entry by entry, and the sign-log version is the sign-log form of the same array. *)
Theorem C48_features : forall sp sizes (antieq h : list (list R)) d, describes sp sizes -> length h = list_sum sizes ->
  Forall2 (fun n v => length v = n) sizes antieq -> Forall (fun r => length r = d) h ->
  exists out, multiply_antieq_by_eq_features (map (map Fin) antieq) (fin2 h) sp = Some out /\
    multiply_slog_antieq_by_eq_features (map (map (fun a => array_to_slog (Fin a))) antieq) (fin2 h) sp = Some (map (map (map array_to_slog)) out) /\
    forall b i c, (b < length sizes)%nat -> (i < nth b sizes 0)%nat -> (c < d)%nat ->
      nth c (nth i (nth b out []) []) NaN = Fin (entry (nth b (cut sizes h) []) i c * nth i (nth b antieq []) 0).
Proof.
  intros sp sizes antieq h d D L F W. destruct (features_entry sp sizes antieq h d D L F W) as (out & E & H). exists out. split; [exact E|]. split; [|exact H].
  rewrite slog_features_fin, E. reflexivity.
Qed.
Print Assumptions C48_features.

(** ** C73 *)
(** Orbital k of the i-th electron of population b: linear part times envelope, or the linear part alone without ions. *)
Theorem C73_orbital_value : forall l ps soft sizes h r, describes (ol_split l) sizes -> length h = list_sum sizes ->
  ol_splits l = map of_real ps -> length ps = length sizes -> ol_soft l = Fin soft -> match r with Some r => length r = list_sum sizes | None => True end ->
  forall b i k p, nth_error ps b = Some p -> (i < nth b sizes 0)%nat -> (k < ro_n p)%nat ->
    nth k (nth i (nth b (ferminet_orbitals l (fin2 h) (option_map (map fin2) r)) []) []) NaN =
    Fin (linear_part p (nth i (nth b (cut sizes h) []) []) k *
         match r with Some r => real_envelope (ol_isotropic l) soft p (nth i (nth b (cut sizes r) []) []) k | None => 1 end).
Proof. exact orbitals_entry. Qed.
Print Assumptions C73_orbital_value.
(** The envelope never exceeds the sum of the ion weights, and with isotropic decay it falls off exponentially with the distance m to the nearest ion,
    at the rate of the orbital, so orbitals with bounded linear part are localised. *)
Theorem C73_envelope_bounded : forall isotropic soft p rs k, 0 <= soft ->
  Rabs (real_envelope isotropic soft p rs k) <= Rsum (length rs) (fun ion => Rabs (ro_pi p k ion)).
Proof. exact envelope_bound. Qed.
Print Assumptions C73_envelope_bounded.
Theorem C73_envelope_decays : forall soft p rs k m, 0 <= soft -> (forall ion, (ion < length rs)%nat -> m <= length_of (nth ion rs [])) ->
  Rabs (real_envelope true soft p rs k) <= Rsum (length rs) (fun ion => Rabs (ro_pi p k ion)) * exp (soft - Rabs (ro_kappa p k) * m).
Proof. exact envelope_decay. Qed.
Print Assumptions C73_envelope_decays.
(** The envelope depends on the directions only through the anisotropic matrix: an isotropic envelope is a function of the electron-ion distances. *)
Theorem C73_isotropic : forall soft p rs rs' k, Forall2 (fun v w => length_of v = length_of w) rs rs' ->
  real_envelope true soft p rs k = real_envelope true soft p rs' k.
Proof.
  intros soft p rs rs' k F. unfold real_envelope. assert (L : length rs = length rs') by (induction F; cbn; congruence). rewrite <- L. apply Rsum_ext. intros i Hi.
  unfold scaled. rewrite !length_of_scale. do 5 f_equal. clear - F Hi. revert i Hi. induction F as [|v w rs rs' E F IH]; intros i Hi; [cbn in Hi; lia|].
  destruct i; [exact E|]. cbn. apply IH. cbn in Hi. lia.
Qed.
Print Assumptions C73_isotropic.
(** ... which is false for the anisotropic envelope. *)
Definition ex_aniso : real_orbitals :=
  {| ro_n := 1; ro_w := fun _ _ => 1; ro_b := None; ro_kappa := fun _ => 1; ro_A := fun _ i c => if Nat.eqb i c then INR i else 0; ro_pi := fun _ _ => 1 |}.
Theorem C73_anisotropic_refuted : exists p rs rs' k, Forall2 (fun v w => length_of v = length_of w) rs rs' /\ real_envelope false 0 p rs k <> real_envelope false 0 p rs' k.
Proof.
  exists ex_aniso, [[1; 0]], [[0; 1]], 0%nat. split; [constructor; [|constructor]; unfold length_of, lsum; cbn; f_equal; ring|].
  assert (E : forall v, length_of (scaled false ex_aniso 0 0 v) = match v with [a; b] => Rabs b | _ => length_of (scaled false ex_aniso 0 0 v) end).
  { intros [|a [|b [|c r]]]; try reflexivity. unfold scaled, length_of, column, lsum. cbn.
    match goal with |- sqrt ?e = _ => replace e with (Rsqr b) by (unfold Rsqr; ring) end. apply sqrt_Rsqr_abs. }
  unfold real_envelope. cbn [length Rsum nth]. rewrite !soft_0 by apply length_of_nonneg. rewrite !E. rewrite Rabs_R0, Rabs_R1. cbn [ro_pi ex_aniso]. intros H.
  assert (Q : exp (- 0) = exp (- (1))) by lra. apply exp_inv in Q. lra.
Qed.
Print Assumptions C73_anisotropic_refuted.
(** One electron of each spin, one ion at the origin, one orbital per spin: (2 h + 1) exp(-3 |r|). *)
Definition ex_iso : real_orbitals :=
  {| ro_n := 1; ro_w := fun _ _ => 2; ro_b := Some (fun _ => 1); ro_kappa := fun _ => 3; ro_A := fun _ _ _ => 0; ro_pi := fun _ _ => 1 |}.
Example C73_example : let l := Build_orbital_layer (At [1%nat]) (Fin 0) true [of_real ex_iso; of_real ex_iso] in
  nth 0 (nth 0 (nth 1 (ferminet_orbitals l (fin2 [[5]; [7]]) (Some (map fin2 [[[1]]; [[2]]]))) []) []) NaN = Fin (15 * exp (- 6)).
Proof.
  cbv zeta. rewrite (C73_orbital_value _ [ex_iso; ex_iso] 0 [1; 1]%nat [[5]; [7]] (Some [[[1]]; [[2]]]) ) with (p := ex_iso); try reflexivity; try (cbn; lia).
  - cbn [cut firstn skipn nth ol_isotropic]. unfold linear_part, real_envelope, column. cbn [length Rsum nth ro_w ro_b ex_iso ro_pi]. rewrite soft_0 by apply length_of_nonneg.
    cbn [scaled]. rewrite length_of_scale. unfold length_of, lsum. cbn [map fold_right ro_kappa ex_iso].
    replace (2 ^ 2 + 0) with (2 * 2) by ring. rewrite sqrt_square by lra. rewrite Rabs_pos_eq by lra. f_equal. replace (- (3 * 2)) with (- 6) by ring. ring.
  - split; [discriminate|]. right. reflexivity.
Qed.
