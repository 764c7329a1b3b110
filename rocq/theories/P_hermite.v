(** * Hermite polynomials and the harmonic-oscillator model *)
From Coq Require Import Reals List Bool Arith Lra Lia FunctionalExtensionality Permutation.
From Coquelicot Require Import Coquelicot.
From Verif Require Import XReal Rsum Det M_stats M_physics S_physics P_unbiased P_stats P_xsum P_orders P_kinetic P_potential P_ibp.
Import ListNotations.
Local Open Scope R_scope.

(** The recurrence, as a function. *)
Fixpoint hpair (n : nat) (x : R) : R * R :=
  match n with
  | O => (1, 2 * x)
  | S n => let '(a, b) := hpair n x in (b, 2 * x * b - 2 * INR (S n) * a)
  end.
Definition hseq (n : nat) (x : R) : R := fst (hpair n x).
Lemma hpair_snd n x : snd (hpair n x) = hseq (S n) x.
Proof. unfold hseq. cbn [hpair]. destruct (hpair n x). reflexivity. Qed.
Lemma hseq_0 x : hseq 0 x = 1. Proof. reflexivity. Qed.
Lemma hseq_1 x : hseq 1 x = 2 * x. Proof. reflexivity. Qed.
Lemma hseq_SS n x : hseq (S (S n)) x = 2 * x * hseq (S n) x - 2 * INR (S n) * hseq n x.
Proof. rewrite <- hpair_snd. cbn [hpair]. rewrite <- (hpair_snd n). unfold hseq. destruct (hpair n x). reflexivity. Qed.

(** The loop computes the sequence. *)
Lemma hermite_loop_spec x k : forall n H, (2 <= n)%nat -> H = map (fun j => hseq j x) (seq 0 n) ->
  hermite_loop x k n H = map (fun j => hseq j x) (seq 0 (n + k)).
Proof.
  induction k as [|k IH]; intros n H Hn E; cbn [hermite_loop]; [rewrite Nat.add_0_r; exact E|].
  rewrite (IH (S n)); [f_equal; f_equal; lia|lia|].
  rewrite seq_S, map_app, <- E. cbn [map Nat.add]. do 2 f_equal.
  assert (Hnth : forall j, (j < n)%nat -> nth j H 0 = hseq j x).
  { intros j Hj. rewrite E. rewrite (nth_indep _ 0 (hseq 0 x)) by (rewrite map_length, seq_length; exact Hj).
    rewrite (map_nth (fun j => hseq j x)). rewrite seq_nth by exact Hj. reflexivity. }
  rewrite !Hnth by lia. destruct n as [|[|n]]; [lia|lia|]. replace (S (S n) - 1)%nat with (S n) by lia. replace (S (S n) - 2)%nat with n by lia.
  symmetry. apply hseq_SS.
Qed.
Lemma make_hermite_nth N j x : (j < N)%nat -> nth j (make_hermite_polynomials N x) 0 = hseq j x.
Proof.
  intros Hj. unfold make_hermite_polynomials. destruct (Nat.eqb_spec N 1) as [->|HN].
  - replace j with O by lia. reflexivity.
  - rewrite (hermite_loop_spec x (N - 2) 2); [|lia|reflexivity].
    replace (2 + (N - 2))%nat with N by lia.
    rewrite (nth_indep _ 0 (hseq 0 x)) by (rewrite map_length, seq_length; exact Hj).
    rewrite (map_nth (fun j => hseq j x)), seq_nth by exact Hj. reflexivity.
Qed.

(** Derivative: H_n' = 2 n H_(n-1). *)
Definition dh (n : nat) (x : R) : R := match n with O => 0 | S m => 2 * INR (S m) * hseq m x end.
Lemma hseq_derive n x : is_derive (hseq n) x (dh n x).
Proof.
  assert (G : forall n, is_derive (hseq n) x (dh n x) /\ is_derive (hseq (S n)) x (dh (S n) x)).
  { clear n. induction n as [|n [IH1 IH2]].
    - split.
      + apply (is_derive_ext (fun _ => 1)); [reflexivity|apply is_derive_constR].
      + apply (is_derive_ext (fun x => 2 * x)); [reflexivity|]. cbn [dh]. rewrite hseq_0. auto_derive; [trivial|]. simpl. ring.
    - split; [exact IH2|].
      apply (is_derive_ext (fun x => 2 * x * hseq (S n) x - 2 * INR (S n) * hseq n x)); [intros t; symmetry; apply hseq_SS|].
      auto_derive; [split; [exists (dh (S n) x); exact IH2|split; [exists (dh n x); exact IH1|trivial]]|].
      change (Derive (fun y => hseq (S n) y) x) with (Derive (hseq (S n)) x). change (Derive (fun y => hseq n y) x) with (Derive (hseq n) x).
      rewrite (is_derive_unique _ _ _ IH1), (is_derive_unique _ _ _ IH2). unfold dh. destruct n as [|n].
      + simpl. rewrite hseq_0. rewrite hseq_1. ring.
      + rewrite (hseq_SS n), !S_INR. ring. }
  apply (G n).
Qed.
Lemma hseq_S n x : hseq (S n) x = 2 * x * hseq n x - dh n x.
Proof. destruct n as [|n]; [rewrite hseq_0, hseq_1; simpl; ring|]. rewrite hseq_SS. reflexivity. Qed.

(** Rodrigues' formula. *)
Lemma gauss_derive_n n x : Derive_n (fun y => exp (- y ^ 2)) n x = (- 1) ^ n * hseq n x * exp (- x ^ 2).
Proof.
  revert x. induction n as [|n IH]; intros x; [cbn [Derive_n pow]; rewrite hseq_0; ring|].
  cbn [Derive_n]. rewrite (Derive_ext _ (fun y => (- 1) ^ n * hseq n y * exp (- y ^ 2))) by exact IH.
  apply is_derive_unique. pose proof (hseq_derive n x) as D.
  auto_derive; [repeat apply Logic.conj; try exact I; exists (dh n x); exact D|].
  change (Derive (fun y => hseq n y) x) with (Derive (hseq n) x). rewrite (is_derive_unique _ _ _ D).
  replace (x * (x * 1)) with (x ^ 2) by ring. rewrite hseq_S. cbn [pow]. ring.
Qed.
Lemma hermite_hseq n x : hermite n x = hseq n x.
Proof.
  unfold hermite. rewrite gauss_derive_n.
  assert (E : exp (x ^ 2) * exp (- x ^ 2) = 1) by (rewrite <- exp_plus, Rplus_opp_r; apply exp_0).
  assert (P : (- 1) ^ n * (- 1) ^ n = 1) by (rewrite <- Rpow_mult_distr; replace (-1 * -1) with 1 by ring; apply pow1).
  transitivity (((- 1) ^ n * (- 1) ^ n) * (exp (x ^ 2) * exp (- x ^ 2)) * hseq n x); [ring|]. rewrite E, P. ring.
Qed.

(** Hermite's differential equation and the orbitals. *)
Lemma dh_derive n x : is_derive (dh n) x (2 * x * dh n x - 2 * INR n * hseq n x).
Proof.
  destruct n as [|n].
  - apply (is_derive_ext (fun _ => 0)); [reflexivity|]. replace (2 * x * dh 0 x - 2 * INR 0 * hseq 0 x) with 0 by (simpl; ring). apply is_derive_constR.
  - apply (is_derive_ext (fun x => 2 * INR (S n) * hseq n x)); [reflexivity|].
    replace (2 * x * dh (S n) x - 2 * INR (S n) * hseq (S n) x) with (2 * INR (S n) * dh n x).
    + apply is_derive_scal. apply hseq_derive.
    + rewrite hseq_S. cbn [dh]. ring.
Qed.
(** e^(-y^2/2) H_j(y): first and second derivative. *)
Definition hfun (k : R) (j : nat) (x : R) : R := exp (- ((k * x) ^ 2 / 2)) * hseq j (k * x).
Definition dhfun (k : R) (j : nat) (x : R) : R := exp (- ((k * x) ^ 2 / 2)) * (k * dh j (k * x) - k ^ 2 * x * hseq j (k * x)).
Lemma hfun_derive k j x : is_derive (hfun k j) x (dhfun k j x).
Proof.
  unfold hfun, dhfun. pose proof (hseq_derive j (k * x)) as D.
  auto_derive; [repeat apply Logic.conj; try exact I; exists (dh j (k * x)); exact D|].
  change (Derive (fun y => hseq j y) (k * x)) with (Derive (hseq j) (k * x)). rewrite (is_derive_unique _ _ _ D).
  replace (k * x * (k * x * 1)) with ((k * x) ^ 2) by ring.
  replace (- ((k * x) ^ 2 * / 2)) with (- ((k * x) ^ 2 / 2)) by (unfold Rdiv; ring). field.
Qed.
Lemma dhfun_derive k j x : is_derive (dhfun k j) x ((k ^ 4 * x ^ 2 - k ^ 2 * (2 * INR j + 1)) * hfun k j x).
Proof.
  unfold dhfun, hfun. pose proof (hseq_derive j (k * x)) as D. pose proof (dh_derive j (k * x)) as D2.
  auto_derive; [exact (Logic.conj (ex_intro _ _ D2) (Logic.conj (ex_intro _ _ D) I))|].
  change (Derive (fun y => hseq j y) (k * x)) with (Derive (hseq j) (k * x)). rewrite (is_derive_unique _ _ _ D).
  change (Derive (fun y => dh j y) (k * x)) with (Derive (dh j) (k * x)). rewrite (is_derive_unique _ _ _ D2).
  replace (k * x * (k * x * 1)) with ((k * x) ^ 2) by ring.
  replace (- ((k * x) ^ 2 * / 2)) with (- ((k * x) ^ 2 / 2)) by (unfold Rdiv; ring). field.
Qed.
Lemma hfun_shift_C2 k j x : C2 (fun t => hfun k j (x + t)) (dhfun k j x) ((k ^ 4 * x ^ 2 - k ^ 2 * (2 * INR j + 1)) * hfun k j x).
Proof.
  assert (Sh : forall f df : R -> R, (forall y : R, is_derive f y (df y)) -> forall t : R, is_derive (fun t => f (x + t)) t (df (x + t))).
  { intros f df Hf t. replace (df (x + t)) with (scal 1 (df (x + t))) by (unfold scal; simpl; unfold mult; simpl; ring).
    apply (is_derive_comp f (fun t => x + t)); [apply Hf|]. auto_derive; [trivial|ring]. }
  pose proof (Sh _ _ (hfun_derive k j)) as S1. pose proof (Sh _ _ (dhfun_derive k j)) as S2. split; [|split].
  - specialize (S1 0). rewrite Rplus_0_r in S1. exact S1.
  - apply filter_forall. intros t. eexists. apply S1.
  - apply (is_derive_ext (fun t => dhfun k j (x + t))).
    + intros t. symmetry. apply is_derive_unique. apply S1.
    + specialize (S2 0). cbv beta in S2. rewrite Rplus_0_r in S2. exact S2.
Qed.
Lemma orbital_hfun k N j x : (j < N)%nat -> harmonic_orbital k N j x = hfun k j x.
Proof. intros H. unfold harmonic_orbital, hfun. rewrite make_hermite_nth by assumption. reflexivity. Qed.

(** ** Products with one moving factor *)
Definition prod_except (n a : nat) (v : nat -> R) : R := Rprod n (fun i => if Nat.eqb i a then 1 else v i).
Lemma Rprod_ext n f g : (forall i, (i < n)%nat -> f i = g i) -> Rprod n f = Rprod n g.
Proof. induction n as [|n IH]; intros H; [reflexivity|]. cbn [Rprod]. rewrite IH by (intros; apply H; lia). rewrite H by lia. reflexivity. Qed.
Lemma Rprod_move n a u v : (a < n)%nat -> Rprod n (fun i => if Nat.eqb i a then u else v i) = u * prod_except n a v.
Proof.
  unfold prod_except. induction n as [|n IH]; intros H; [lia|]. cbn [Rprod]. destruct (Nat.eq_dec a n) as [->|Hn].
  - rewrite Nat.eqb_refl.
    rewrite (Rprod_ext n (fun i => if Nat.eqb i n then u else v i) v) by (intros i Hi; destruct (Nat.eqb_spec i n); [lia|reflexivity]).
    rewrite (Rprod_ext n (fun i => if Nat.eqb i n then 1 else v i) v) by (intros i Hi; destruct (Nat.eqb_spec i n); [lia|reflexivity]). ring.
  - rewrite IH by lia. destruct (Nat.eqb_spec n a); [congruence|]. ring.
Qed.
Lemma Rprod_split n a v : (a < n)%nat -> Rprod n v = v a * prod_except n a v.
Proof.
  intros H. rewrite <- (Rprod_move n a (v a) v H). apply Rprod_ext. intros i _. destruct (Nat.eqb_spec i a) as [->|]; reflexivity.
Qed.

Lemma C2_lsum {A} (l : list A) (f : A -> R -> R) a1 a2 : (forall p, In p l -> C2 (f p) (a1 p) (a2 p)) ->
  C2 (fun t => lsum (map (fun p => f p t) l)) (lsum (map a1 l)) (lsum (map a2 l)).
Proof.
  induction l as [|p l IH]; intros H; [apply (C2_const 0)|]. cbn [map lsum fold_right]. 
  apply (C2_plus (f p) (fun t => lsum (map (fun p => f p t) l))); [apply H; left; reflexivity|apply IH; intros; apply H; right; assumption].
Qed.

(** A determinant of orbitals, as a function of one moving particle. *)
Definition slater (k : R) (N : nat) (y : nat -> R) : R := det N (fun i j => hfun k j (y i)).
Lemma slater_eigen k N : exists D : (nat -> R) -> nat -> R * R,
  (forall y a, (a < N)%nat -> C2 (fun t => slater k N (fun i => if Nat.eqb i a then y i + t else y i)) (fst (D y a)) (snd (D y a))) /\
  (forall y, Rsum N (fun a => snd (D y a)) = k ^ 4 * Rsum N (fun a => y a ^ 2) * slater k N y - k ^ 2 * INR N ^ 2 * slater k N y).
Proof.
  destruct (det_leibniz N) as (l & Hl & HD).
  set (P := fun (p : R * (nat -> nat)) (y : nat -> R) => Rprod N (fun i => hfun k (snd p i) (y i))).
  exists (fun y a => (lsum (map (fun p => fst p * (prod_except N a (fun i => hfun k (snd p i) (y i)) * dhfun k (snd p a) (y a))) l),
                      lsum (map (fun p => fst p * ((k ^ 4 * y a ^ 2 - k ^ 2 * (2 * INR (snd p a) + 1)) * P p y)) l))). split.
  - intros y a Ha. cbn [fst snd].
    apply (C2_ext (fun t => lsum (map (fun p => fst p * (prod_except N a (fun i => hfun k (snd p i) (y i)) * hfun k (snd p a) (y a + t))) l))).
    + intros t. unfold slater. rewrite HD. apply lsum_map_ext_in. intros p Hp. f_equal.
      rewrite Rmult_comm, <- (Rprod_move N a (hfun k (snd p a) (y a + t)) _ Ha). apply Rprod_ext. intros i _.
      destruct (Nat.eqb_spec i a) as [->|]; reflexivity.
    + apply (C2_lsum l (fun p t => fst p * (prod_except N a (fun i => hfun k (snd p i) (y i)) * hfun k (snd p a) (y a + t)))
               (fun p => fst p * (prod_except N a (fun i => hfun k (snd p i) (y i)) * dhfun k (snd p a) (y a)))
               (fun p => fst p * ((k ^ 4 * y a ^ 2 - k ^ 2 * (2 * INR (snd p a) + 1)) * P p y))).
      intros p Hp. apply C2_scal.
      apply (C2_eq _ (prod_except N a (fun i => hfun k (snd p i) (y i)) * dhfun k (snd p a) (y a))
                     (prod_except N a (fun i => hfun k (snd p i) (y i)) * ((k ^ 4 * y a ^ 2 - k ^ 2 * (2 * INR (snd p a) + 1)) * hfun k (snd p a) (y a)))); [reflexivity| |].
      * unfold P. rewrite (Rprod_split N a _ Ha). ring.
      * apply C2_scal. apply hfun_shift_C2.
  - intros y. cbn [snd]. unfold slater. rewrite !HD. fold (P). 
    transitivity (lsum (map (fun p => fst p * ((k ^ 4 * Rsum N (fun a => y a ^ 2) - k ^ 2 * INR N ^ 2) * P p y)) l)).
    + assert (Sw : forall (m : nat) (F : nat -> R * (nat -> nat) -> R) l', Rsum m (fun a => lsum (map (F a) l')) = lsum (map (fun p => Rsum m (fun a => F a p)) l')).
      { intros m F l'. induction l' as [|p l' IH]; [apply Rsum_0|]. cbn [map lsum fold_right]. rewrite Rsum_plus. f_equal. exact IH. }
      rewrite (Sw N (fun a p => fst p * ((k ^ 4 * y a ^ 2 - k ^ 2 * (2 * INR (snd p a) + 1)) * P p y))).
      apply lsum_map_ext_in. intros p Hp.
      rewrite (Rsum_ext N _ (fun a => fst p * P p y * (k ^ 4 * y a ^ 2 - k ^ 2 * (2 * INR (snd p a) + 1)))) by (intros; ring).
      rewrite Rsum_scal, Rsum_minus, !Rsum_scal.
      rewrite (Rsum_renumber N (snd p) (fun j => 2 * INR j + 1) (Hl p Hp)).
      assert (Odd : forall m, Rsum m (fun j => 2 * INR j + 1) = INR m ^ 2).
      { intros m. induction m as [|m IH]; [simpl; ring|]. cbn [Rsum]. rewrite IH, S_INR. ring. }
      rewrite Odd. ring.
    + rewrite <- !lsum_map_scal. rewrite <- lsum_map_minus. apply lsum_map_ext_in. intros p Hp. unfold P. ring.
Qed.

(** ** Local energy of a general wavefunction along the lines *)
Lemma kinetic_of_psi np d (f psi : positions -> R) x : reads np d f -> psi x <> 0 ->
  (forall i c, (i < np)%nat -> (c < d)%nat ->
     locally 0 (fun t => f (move x i c t) = ln (Rabs (psi (move x i c t)))) /\
     locally 0 (fun t => ex_derive (line psi x i c) t) /\ ex_derive (Derive (line psi x i c)) 0) ->
  laplacian_kinetic_energy f np d x =
  Some (- (1 / 2) * (Rsum np (fun i => Rsum d (fun c => Derive (Derive (line psi x i c)) 0)) / psi x)).
Proof.
  intros HR H0 H. unfold laplacian_kinetic_energy. rewrite laplacian_full by assumption. cbn [option_map]. do 2 f_equal.
  unfold Rdiv. rewrite <- Rsum_scal_r. apply Rsum_ext. intros i Hi. rewrite <- Rsum_scal_r. apply Rsum_ext. intros c Hc.
  destruct (H i c Hi Hc) as (A & B & C).
  assert (E0 : line psi x i c 0 = psi x) by (unfold line; rewrite move_0; reflexivity).
  assert (L : locally 0 (fun t => line f x i c t = (fun t => ln (Rabs (line psi x i c t))) t)) by exact A.
  rewrite (Derive_ext_loc _ _ _ L).
  assert (L2 : locally 0 (fun t => Derive (line f x i c) t = Derive (fun t => ln (Rabs (line psi x i c t))) t)).
  { pose proof (locally_locally _ _ L) as LL. revert LL. apply filter_imp. intros t Ht. apply Derive_ext_loc. exact Ht. }
  rewrite (Derive_ext_loc _ _ _ L2).
  destruct (ln_abs_line (line psi x i c)) as [E1 E2]; [rewrite E0; assumption|assumption|assumption|].
  rewrite E1, E2, E0. field. assumption.
Qed.

Lemma harmonic_reads k nup n : (nup <= n)%nat -> reads n 1 (harmonic_log_psi k nup n).
Proof.
  intros Hn x y H. unfold harmonic_log_psi. f_equal; f_equal; f_equal; apply det_ext; intros i j Hi Hj; rewrite H by lia; reflexivity.
Qed.
Lemma slater_ext k N y y' : (forall i, (i < N)%nat -> y i = y' i) -> slater k N y = slater k N y'.
Proof. intros H. unfold slater. apply det_ext. intros i j Hi Hj. rewrite H by assumption. reflexivity. Qed.
Lemma det_orbitals k N (y : nat -> R) : det N (fun i j => harmonic_orbital k N j (y i)) = slater k N y.
Proof. apply det_ext. intros i j Hi Hj. apply orbital_hfun. exact Hj. Qed.

(** The many-particle wavefunction. *)
Definition hpsi (k : R) (nup n : nat) (x : positions) : R :=
  slater k nup (fun i => x i O) * slater k (n - nup) (fun i => x (nup + i)%nat O).

Lemma locally_nonzero (phi : R -> R) : continuous phi 0 -> phi 0 <> 0 -> locally 0 (fun t => phi t <> 0).
Proof.
  intros Hc H0. assert (E : locally (phi 0) (fun y => y <> 0)).
  { assert (Hp : 0 < Rabs (phi 0)) by (apply Rabs_pos_lt; assumption). exists (mkposreal _ Hp). intros y Hy.
    unfold ball in Hy. simpl in Hy. unfold AbsRing_ball, abs, minus, plus, opp in Hy. simpl in Hy. intros ->.
    rewrite Rplus_0_l, Rabs_Ropp in Hy. lra. }
  exact (Hc _ E).
Qed.
Lemma C2_continuous f a b : C2 f a b -> continuous f 0.
Proof. intros (H & _ & _). apply (@ex_derive_continuous R_AbsRing R_NormedModule f 0). exists a. exact H. Qed.

Lemma harmonic_energy omega k nup n x : k ^ 2 = omega -> (nup <= n)%nat -> hpsi k nup n x <> 0 ->
  harmonic_local_energy_standard omega (harmonic_log_psi k nup n) n 1 x =
  Some (omega * (INR nup ^ 2 + INR (n - nup) ^ 2) / 2).
Proof.
  intros Hk Hn H0. unfold harmonic_local_energy_standard.
  set (yu := fun i => x i O). set (yd := fun i => x (nup + i)%nat O).
  assert (Hu : slater k nup yu <> 0) by (intros E; apply H0; unfold hpsi; fold yu yd; rewrite E; ring).
  assert (Hd : slater k (n - nup) yd <> 0) by (intros E; apply H0; unfold hpsi; fold yu yd; rewrite E; ring).
  destruct (slater_eigen k nup) as (Du & Cu & Eu). destruct (slater_eigen k (n - nup)) as (Dd & Cd & Ed).
  assert (LU : forall a t, (a < nup)%nat -> line (hpsi k nup n) x a 0 t = slater k (n - nup) yd * slater k nup (fun i => if Nat.eqb i a then yu i + t else yu i)).
  { intros a t Ha. unfold line, hpsi. rewrite Rmult_comm. f_equal.
    - apply slater_ext. intros i Hi. unfold move, yd. destruct (Nat.eqb_spec (nup + i) a); [lia|]. reflexivity.
    - apply slater_ext. intros i Hi. unfold move, yu. rewrite Bool.andb_true_r. reflexivity. }
  assert (LD : forall a t, (a < n - nup)%nat -> line (hpsi k nup n) x (nup + a) 0 t = slater k nup yu * slater k (n - nup) (fun i => if Nat.eqb i a then yd i + t else yd i)).
  { intros a t Ha. unfold line, hpsi. f_equal.
    - apply slater_ext. intros i Hi. unfold move, yu. destruct (Nat.eqb_spec i (nup + a)); [lia|]. reflexivity.
    - apply slater_ext. intros i Hi. unfold move, yd. rewrite Bool.andb_true_r.
      destruct (Nat.eqb_spec (nup + i) (nup + a)), (Nat.eqb_spec i a); try lia; reflexivity. }
  assert (CU : forall a, (a < nup)%nat -> C2 (line (hpsi k nup n) x a 0) (slater k (n - nup) yd * fst (Du yu a)) (slater k (n - nup) yd * snd (Du yu a))).
  { intros a Ha. eapply C2_ext; [intros t; symmetry; apply LU; exact Ha|]. apply C2_scal. apply Cu. exact Ha. }
  assert (CD : forall a, (a < n - nup)%nat -> C2 (line (hpsi k nup n) x (nup + a) 0) (slater k nup yu * fst (Dd yd a)) (slater k nup yu * snd (Dd yd a))).
  { intros a Ha. eapply C2_ext; [intros t; symmetry; apply LD; exact Ha|]. apply C2_scal. apply Cd. exact Ha. }
  assert (CC : forall a, (a < n)%nat -> exists u v, C2 (line (hpsi k nup n) x a 0) u v).
  { intros a Ha. destruct (Nat.lt_ge_cases a nup) as [L|L]; [do 2 eexists; apply CU; exact L|].
    replace a with (nup + (a - nup))%nat by lia. do 2 eexists. apply CD. lia. }
  rewrite (kinetic_of_psi n 1 _ (hpsi k nup n) x (harmonic_reads k nup n Hn) H0).
  - cbn [option_map]. f_equal. unfold harmonic_oscillator_potential.
    rewrite (Rsum_ext n (fun i => Rsum 1 (fun c => Derive (Derive (line (hpsi k nup n) x i c)) 0)) (fun i => Derive (Derive (line (hpsi k nup n) x i 0)) 0)) by (intros; cbn [Rsum]; ring).
    rewrite (Rsum_ext n (fun i => Rsum 1 (fun c => (omega * x i c) ^ 2)) (fun i => omega ^ 2 * x i O ^ 2)) by (intros; cbn [Rsum]; ring).
    replace n with (nup + (n - nup))%nat at 1 3 by lia. rewrite !Rsum_app.
    rewrite (Rsum_ext nup (fun i => Derive (Derive (line (hpsi k nup n) x i 0)) 0) (fun a => slater k (n - nup) yd * snd (Du yu a))).
    2:{ intros a Ha. apply is_derive_unique. destruct (CU a Ha) as (_ & _ & X). exact X. }
    rewrite (Rsum_ext (n - nup) (fun i => Derive (Derive (line (hpsi k nup n) x (nup + i) 0)) 0) (fun a => slater k nup yu * snd (Dd yd a))).
    2:{ intros a Ha. apply is_derive_unique. destruct (CD a Ha) as (_ & _ & X). exact X. }
    rewrite !Rsum_scal, Eu, Ed. unfold hpsi. fold yu yd.
    change (fun i => x i O ^ 2) with (fun i => yu i ^ 2). change (fun i => x (nup + i)%nat O ^ 2) with (fun i => yd i ^ 2).
    replace (k ^ 4) with (omega ^ 2) by (rewrite <- Hk; ring). rewrite Hk. field. split; assumption.
  - intros i c Hi Hc. replace c with O by lia. destruct (CC i Hi) as (u & v & HC). split; [|split].
    + assert (N0 : locally 0 (fun t => line (hpsi k nup n) x i 0 t <> 0)).
      { apply locally_nonzero; [apply (C2_continuous _ _ _ HC)|]. unfold line. rewrite move_0. exact H0. }
      revert N0. apply filter_imp. intros t Ht. unfold harmonic_log_psi, line, hpsi in *.
      rewrite (det_orbitals k nup (fun i0 => move x i 0 t i0 O)), (det_orbitals k (n - nup) (fun i0 => move x i 0 t (nup + i0)%nat O)).
      rewrite Rabs_mult, ln_mult; [reflexivity| |]; apply Rabs_pos_lt; intros E; apply Ht; rewrite E; ring.
    + apply HC.
    + exists v. apply HC.
Qed.
