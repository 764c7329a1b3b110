(** * Proofs about the potentials and their sampled versions *)
From Coq Require Import Reals List Bool Arith Lra Lia Permutation.
From Coquelicot Require Import Coquelicot.
From Verif Require Import XReal Rsum M_stats M_physics S_physics P_stats P_xsum P_orders P_kinetic.
Import ListNotations.
Local Open Scope R_scope.

Lemma distance_sym d a b : distance d a b = distance d b a.
Proof. unfold distance. f_equal. apply Rsum_ext. intros c _. ring. Qed.
Lemma soft_distance_sym d s a b : soft_distance d s a b = soft_distance d s b a.
Proof. unfold soft_distance. rewrite distance_sym. reflexivity. Qed.
Lemma soft_distance_isometry d s phi : (forall a b, distance d (phi a) (phi b) = distance d a b) ->
  forall a b, soft_distance d s (phi a) (phi b) = soft_distance d s a b.
Proof. intros H a b. unfold soft_distance. rewrite H. reflexivity. Qed.
Lemma soft_norm_disp d x y i j s : compute_soft_norm d (compute_displacements x y i j) s = soft_distance d s (x i) (y j).
Proof. apply soft_norm_distance. Qed.
Lemma distance_nonneg d a b : 0 <= distance d a b.
Proof. apply sqrt_pos. Qed.
Lemma soft_distance_nonneg d s a b : 0 <= soft_distance d s a b.
Proof. apply sqrt_pos. Qed.
Lemma soft_distance_zero d s a b : soft_distance d s a b = 0 <-> (distance d a b = 0 /\ s = 0).
Proof.
  unfold soft_distance. pose proof (pow2_ge_0 (distance d a b)) as H1. pose proof (pow2_ge_0 s) as H2. split.
  - intros H. apply sqrt_eq_0 in H; [|lra]. split.
    + apply Rsqr_0_uniq. rewrite Rsqr_pow2. lra.
    + apply Rsqr_0_uniq. rewrite Rsqr_pow2. lra.
  - intros [-> ->]. replace (0 ^ 2 + 0 ^ 2) with 0 by ring. apply sqrt_0.
Qed.

(** Potentials in terms of distances. *)
Lemma ei_eq d nion locs Z g s np n x : electron_ion_potential d nion locs Z g s np n x =
  match np with
  | None => Some (xmul (xmul (Fin (- g)) (xsum2 n nion (fun i j => xdiv (Fin (Z j)) (Fin (soft_distance d s (x i) (locs j)))))) (Fin 1))
  | Some O => None
  | Some (S k) => Some (xmul (xmul (Fin (- g)) (xsum2 (Nat.min (S k) n) nion (fun i j => xdiv (Fin (Z j)) (Fin (soft_distance d s (x i) (locs j)))))) (Fin (INR n / INR (S k))))
  end.
Proof.
  unfold electron_ion_potential. destruct np as [[|k]|]; [reflexivity| |]; f_equal; f_equal; f_equal; apply xsum2_ext;
    intros i j _ _; rewrite soft_norm_disp; reflexivity.
Qed.
Definition pair_term (d : nat) (g s : R) (x : positions) (i j : nat) : xr := xdiv (Fin g) (Fin (soft_distance d s (x i) (x j))).
Lemma pair_term_sym d g s x i j : pair_term d g s x i j = pair_term d g s x j i.
Proof. unfold pair_term. rewrite soft_distance_sym. reflexivity. Qed.
Lemma ee_eq d g s np n x : electron_electron_potential d g s np n x =
  match np with
  | None => Some (xsum2 n n (triu1 (pair_term d g s x)))
  | Some O => None
  | Some (S k) => Some (xdiv (xmul (xsum2 (Nat.min (S k) n) n (offdiag (pair_term d g s x))) (Fin (INR n / INR (S k)))) (Fin 2))
  end.
Proof.
  unfold electron_electron_potential. destruct np as [[|k]|]; [reflexivity| |]; f_equal; [f_equal; f_equal|]; apply xsum2_ext;
    intros i j _ _; unfold offdiag, triu1, tril1, pair_term; rewrite soft_norm_disp; reflexivity.
Qed.
Definition ion_term (d : nat) (locs : positions) (Z : nat -> R) (i j : nat) : xr :=
  xdiv (Fin (Z i * Z j)) (Fin (soft_distance d 0 (locs i) (locs j))).
Lemma ion_term_sym d locs Z i j : ion_term d locs Z i j = ion_term d locs Z j i.
Proof. unfold ion_term. rewrite soft_distance_sym, Rmult_comm. reflexivity. Qed.
Lemma ii_eq d nion locs Z n x : ion_ion_potential d nion locs Z n x = Some (xsum2 nion nion (triu1 (ion_term d locs Z))).
Proof.
  unfold ion_ion_potential. f_equal. apply xsum2_ext. intros i j _ _. unfold triu1, ion_term. rewrite soft_norm_disp. reflexivity.
Qed.

(** ** Renumbering *)
Lemma ei_renumber d nion locs Z g s n x sg : renumbering n sg ->
  electron_ion_potential d nion locs Z g s None n (fun i => x (sg i)) = electron_ion_potential d nion locs Z g s None n x.
Proof.
  intros H. rewrite !ei_eq. do 3 f_equal.
  apply (xsum2_renumber_l n nion sg (fun i j => xdiv (Fin (Z j)) (Fin (soft_distance d s (x i) (locs j)))) H).
Qed.
Lemma ei_renumber_ions d nion locs Z g s np n x sg : renumbering nion sg ->
  electron_ion_potential d nion (fun j => locs (sg j)) (fun j => Z (sg j)) g s np n x = electron_ion_potential d nion locs Z g s np n x.
Proof.
  intros H. rewrite !ei_eq. destruct np as [[|k]|]; [reflexivity| |]; do 3 f_equal.
  - apply (xsum2_renumber_r _ nion sg (fun i j => xdiv (Fin (Z j)) (Fin (soft_distance d s (x i) (locs j)))) H).
  - apply (xsum2_renumber_r n nion sg (fun i j => xdiv (Fin (Z j)) (Fin (soft_distance d s (x i) (locs j)))) H).
Qed.
Lemma ee_renumber d g s n x sg : renumbering n sg ->
  electron_electron_potential d g s None n (fun i => x (sg i)) = electron_electron_potential d g s None n x.
Proof.
  intros H. rewrite !ee_eq. f_equal. apply (triu_renumber n sg (pair_term d g s x) H). apply pair_term_sym.
Qed.
Lemma ii_renumber d nion locs Z n x sg : renumbering nion sg ->
  ion_ion_potential d nion (fun j => locs (sg j)) (fun j => Z (sg j)) n x = ion_ion_potential d nion locs Z n x.
Proof. intros H. rewrite !ii_eq. f_equal. apply (triu_renumber nion sg (ion_term d locs Z) H). apply ion_term_sym. Qed.

(** ** Signs *)
Definition xnonneg (v : xr) : Prop := v = PInf \/ exists r, v = Fin r /\ 0 <= r.
Lemma xnonneg_0 : xnonneg (Fin 0). Proof. right. exists 0. split; [reflexivity|lra]. Qed.
Lemma xnonneg_add a b : xnonneg a -> xnonneg b -> xnonneg (xadd a b).
Proof.
  intros [->|(r & -> & Hr)] [->|(q & -> & Hq)]; simpl; try (left; reflexivity). right. exists (r + q). split; [reflexivity|lra].
Qed.
Lemma xnonneg_sum l : (forall a, In a l -> xnonneg a) -> xnonneg (xsum l).
Proof.
  induction l as [|a l IH]; intros H; [apply xnonneg_0|]. rewrite xsum_cons. apply xnonneg_add; [apply H; left; reflexivity|].
  apply IH. intros b Hb. apply H. right. exact Hb.
Qed.
Lemma xnonneg_sum2 n m f : (forall i j, (i < n)%nat -> (j < m)%nat -> xnonneg (f i j)) -> xnonneg (xsum2 n m f).
Proof.
  intros H. unfold xsum2, xsum_n at 1. apply xnonneg_sum. intros a Ha. apply in_map_iff in Ha. destruct Ha as (i & <- & Hi). apply in_seq in Hi.
  unfold xsum_n. apply xnonneg_sum. intros b Hb. apply in_map_iff in Hb. destruct Hb as (j & <- & Hj). apply in_seq in Hj. apply H; lia.
Qed.
Lemma xnonneg_div a b : 0 < a -> 0 <= b -> xnonneg (xdiv (Fin a) (Fin b)).
Proof.
  intros Ha Hb. simpl. destruct (Req_EM_T b 0) as [E|E].
  - left. unfold inf_of_sign. destruct (Rlt_dec a 0); [lra|]. destruct (Rlt_dec 0 a); [reflexivity|lra].
  - right. exists (a / b). split; [reflexivity|]. apply Rlt_le, Rdiv_lt_0_compat; lra.
Qed.

(** ** The real-valued case *)
Definition real_pair (d : nat) (g s : R) (x : positions) (i j : nat) : R := g / soft_distance d s (x i) (x j).
Lemma pairs_lsum n f : lsum (map (fun ij => f (fst ij) (snd ij)) (unordered_pairs n)) =
  Rsum n (fun i => Rsum n (fun j => if Nat.ltb i j then f i j else 0)).
Proof.
  pose proof (triu_pairs n (fun i j => Fin (f i j))) as H.
  rewrite <- (map_map (fun ij => f (fst ij) (snd ij)) Fin), xsum_map_fin in H.
  rewrite (xsum2_ext n n _ (fun i j => Fin (if Nat.ltb i j then f i j else 0))), xsum2_fin in H.
  - injection H as H. symmetry. exact H.
  - intros i j _ _. unfold triu1. destruct (Nat.ltb i j); reflexivity.
Qed.
Lemma triu_real n d g s x : no_coincidence d s n x ->
  xsum2 n n (triu1 (pair_term d g s x)) = Fin (lsum (map (fun ij => real_pair d g s x (fst ij) (snd ij)) (unordered_pairs n))).
Proof.
  intros H. rewrite pairs_lsum, <- xsum2_fin. apply xsum2_ext. intros i j Hi Hj. unfold triu1. destruct (Nat.ltb_spec i j); [|reflexivity].
  unfold pair_term. apply xdiv_fin. apply H; lia.
Qed.
Lemma offdiag_real m n d g s x : (m <= n)%nat -> no_coincidence d s n x ->
  xsum2 m n (offdiag (pair_term d g s x)) = Fin (Rsum m (fun i => Rsum n (fun j => if Nat.eqb i j then 0 else real_pair d g s x i j))).
Proof.
  intros Hm H. rewrite <- xsum2_fin. apply xsum2_ext. intros i j Hi Hj. rewrite offdiag_eq. destruct (Nat.eqb_spec i j); [reflexivity|].
  unfold pair_term. apply xdiv_fin. apply H; lia.
Qed.
Lemma real_pair_sym d g s x i j : real_pair d g s x i j = real_pair d g s x j i.
Proof. unfold real_pair. rewrite soft_distance_sym. reflexivity. Qed.

(** Weighted double sum as a sum over unordered pairs. *)
Lemma weighted_pairs n (a : nat -> R) f : (forall i j, f i j = f j i) ->
  Rsum n (fun i => a i * Rsum n (fun j => if Nat.eqb i j then 0 else f i j)) =
  lsum (map (fun ij => (a (fst ij) + a (snd ij)) * f (fst ij) (snd ij)) (unordered_pairs n)).
Proof.
  intros Hs. rewrite (pairs_lsum n (fun i j => (a i + a j) * f i j)).
  transitivity (Rsum n (fun i => Rsum n (fun j => if Nat.ltb i j then a i * f i j else 0)) +
                Rsum n (fun i => Rsum n (fun j => if Nat.ltb j i then a i * f i j else 0))).
  - rewrite <- Rsum_plus. apply Rsum_ext. intros i _. rewrite <- Rsum_plus, <- Rsum_scal. apply Rsum_ext. intros j _.
    destruct (Nat.eqb_spec i j), (Nat.ltb_spec i j), (Nat.ltb_spec j i); try lia; ring.
  - rewrite (Rsum_swap n n (fun i j => if Nat.ltb j i then a i * f i j else 0)).
    rewrite <- Rsum_plus. apply Rsum_ext. intros i _. rewrite <- Rsum_plus. apply Rsum_ext. intros j _.
    destruct (Nat.ltb i j); [rewrite (Hs j i); ring|ring].
Qed.
Lemma Rsum_indicator_lt m n f : (m <= n)%nat -> Rsum m f = Rsum n (fun i => (if Nat.ltb i m then 1 else 0) * f i).
Proof.
  intros H. replace n with (m + (n - m))%nat by lia. rewrite Rsum_app.
  rewrite (Rsum_eq_0 (n - m)).
  - rewrite Rplus_0_r. apply Rsum_ext. intros i Hi. destruct (Nat.ltb_spec i m); [ring|lia].
  - intros i _. destruct (Nat.ltb_spec (m + i) m); [lia|ring].
Qed.
Definition first_share (k i j : nat) : R := ((if Nat.ltb i k then 1 else 0) + (if Nat.ltb j k then 1 else 0)) / 2.
Lemma lsum_map_ext_in {A} (f g : A -> R) l : (forall a, In a l -> f a = g a) -> lsum (map f l) = lsum (map g l).
Proof. intros H. f_equal. apply map_ext_in. exact H. Qed.

Lemma ee_sampled_real d g s k n x : (0 < k)%nat -> no_coincidence d s n x ->
  electron_electron_potential d g s (Some k) n x =
  Some (Fin (INR n / INR k * lsum (map (fun ij => first_share k (fst ij) (snd ij) * real_pair d g s x (fst ij) (snd ij)) (unordered_pairs n)))).
Proof.
  intros Hk H. rewrite ee_eq. destruct k as [|k]; [lia|]. rewrite offdiag_real by (try lia; assumption). cbn [xmul].
  rewrite xdiv_fin by lra. do 2 f_equal.
  rewrite (Rsum_indicator_lt (Nat.min (S k) n) n) by lia. rewrite (weighted_pairs n (fun i => if Nat.ltb i (Nat.min (S k) n) then 1 else 0)) by (intros; apply real_pair_sym).
  unfold Rdiv at 1. rewrite Rmult_assoc, Rmult_comm, Rmult_assoc. f_equal. rewrite <- lsum_map_scal. apply lsum_map_ext_in.
  intros [i j] Hij. apply in_unordered_pairs in Hij. cbn [fst snd]. unfold first_share.
  destruct (Nat.ltb_spec i (Nat.min (S k) n)), (Nat.ltb_spec j (Nat.min (S k) n)), (Nat.ltb_spec i (S k)), (Nat.ltb_spec j (S k)); try lia; lra.
Qed.

(** ** Averages over particle orders *)
Lemma Rsum_renumber n s f : renumbering n s -> Rsum n (fun i => f (s i)) = Rsum n f.
Proof.
  intros H. pose proof (xsum_n_renumber n s (fun i => Fin (f i)) H) as E. rewrite !xsum_n_fin in E. injection E as E. exact E.
Qed.
Lemma average_first n k h : (k <= n)%nat -> average_over_orders n (fun s => Rsum k (fun i => h (s i))) = INR k / INR n * Rsum n h.
Proof.
  intros H. rewrite average_sum. rewrite (Rsum_ext k _ (fun _ => Rsum n h / INR n)).
  - rewrite Rsum_const. unfold Rdiv. ring.
  - intros i Hi. apply average_position. lia.
Qed.
Lemma no_coincidence_renumber d s n x sg : renumbering n sg -> no_coincidence d s n x -> no_coincidence d s n (fun i => x (sg i)).
Proof.
  intros H HC i j Hi Hj Hne. apply HC; [apply (renumbering_bound n sg H); assumption..|]. intros E. apply Hne.
  apply (renumbering_inj n sg H); assumption.
Qed.
Lemma ee_average d g s k n x : (0 < k <= n)%nat -> no_coincidence d s n x ->
  average_over_orders n (fun sg => toR (electron_electron_potential d g s (Some k) n (fun i => x (sg i)))) =
  toR (electron_electron_potential d g s None n x).
Proof.
  intros Hk H. set (h := fun a => Rsum n (fun b => if Nat.eqb a b then 0 else real_pair d g s x a b)).
  rewrite (average_ext n _ (fun sg => INR n / INR k / 2 * Rsum k (fun i => h (sg i)))).
  - rewrite average_scal, average_first by lia. rewrite ee_eq, triu_real by assumption. cbn [toR].
    assert (E : Rsum n h = 2 * lsum (map (fun ij => real_pair d g s x (fst ij) (snd ij)) (unordered_pairs n))).
    { unfold h. rewrite (Rsum_ext n _ (fun i => 1 * Rsum n (fun b => if Nat.eqb i b then 0 else real_pair d g s x i b))) by (intros; ring).
      rewrite (weighted_pairs n (fun _ => 1)) by (intros; apply real_pair_sym). rewrite <- lsum_map_scal. apply lsum_map_ext_in. intros; ring. }
    rewrite E. pose proof (INR_pos n ltac:(lia)). pose proof (INR_pos k ltac:(lia)). field. lra.
  - intros sg Hsg. rewrite ee_eq. destruct k as [|k]; [lia|]. rewrite offdiag_real by (try lia; apply no_coincidence_renumber; assumption).
    cbn [xmul]. rewrite xdiv_fin by lra. cbn [toR]. replace (Nat.min (S k) n) with (S k) by lia.
    rewrite (Rsum_ext (S k) (fun i => Rsum n (fun j => if Nat.eqb i j then 0 else real_pair d g s (fun i0 => x (sg i0)) i j)) (fun i => h (sg i))).
    + unfold Rdiv. ring.
    + intros i Hi. unfold h. symmetry. rewrite <- (Rsum_renumber n sg _ Hsg). symmetry. apply Rsum_ext. intros j Hj.
      destruct (Nat.eqb_spec i j), (Nat.eqb_spec (sg i) (sg j)); try reflexivity.
      * congruence.
      * exfalso. apply n0. apply (renumbering_inj n sg Hsg); [lia|assumption..].
Qed.

Lemma ei_real d nion locs Z g s n x : no_ion_coincidence d s n nion x locs ->
  electron_ion_potential d nion locs Z g s None n x =
  Some (Fin (- g * Rsum n (fun i => Rsum nion (fun j => Z j / soft_distance d s (x i) (locs j))))).
Proof.
  intros H. rewrite ei_eq. f_equal.
  rewrite (xsum2_ext n nion _ (fun i j => Fin (Z j / soft_distance d s (x i) (locs j)))), xsum2_fin.
  - cbn [xmul]. f_equal. ring.
  - intros i j Hi Hj. apply xdiv_fin. apply H; assumption.
Qed.
Lemma ei_sampled_real d nion locs Z g s k n x : (0 < k)%nat -> no_ion_coincidence d s n nion x locs ->
  electron_ion_potential d nion locs Z g s (Some k) n x =
  Some (Fin (INR n / INR k * (- g * Rsum (Nat.min k n) (fun i => Rsum nion (fun j => Z j / soft_distance d s (x i) (locs j)))))).
Proof.
  intros Hk H. rewrite ei_eq. destruct k as [|k]; [lia|]. f_equal.
  rewrite (xsum2_ext _ nion _ (fun i j => Fin (Z j / soft_distance d s (x i) (locs j)))), xsum2_fin.
  - cbn [xmul]. f_equal. ring.
  - intros i j Hi Hj. apply xdiv_fin. apply H; lia.
Qed.
Lemma ei_average d nion locs Z g s k n x : (0 < k <= n)%nat -> no_ion_coincidence d s n nion x locs ->
  average_over_orders n (fun sg => toR (electron_ion_potential d nion locs Z g s (Some k) n (fun i => x (sg i)))) =
  toR (electron_ion_potential d nion locs Z g s None n x).
Proof.
  intros Hk H. set (h := fun a => Rsum nion (fun j => Z j / soft_distance d s (x a) (locs j))).
  rewrite (average_ext n _ (fun sg => INR n / INR k * - g * Rsum k (fun i => h (sg i)))).
  - rewrite average_scal, average_first by lia. rewrite ei_real by assumption. cbn [toR]. fold h.
    change (Rsum n (fun i => Rsum nion (fun j => Z j / soft_distance d s (x i) (locs j)))) with (Rsum n h).
    pose proof (INR_pos n ltac:(lia)). pose proof (INR_pos k ltac:(lia)). field. lra.
  - intros sg Hsg. rewrite ei_sampled_real; [|lia|].
    + cbn [toR]. replace (Nat.min k n) with k by lia. unfold h. ring.
    + intros i j Hi Hj. apply H; [apply (renumbering_bound n sg Hsg); assumption|assumption].
Qed.

(** ** The sampled kinetic energy *)
Lemma kinetic_average np d q k f x : reads np d f -> (0 < k)%nat -> (0 < d)%nat -> (3 * k = q * d)%nat -> (q <= np)%nat ->
  average_over_orders np (fun sg => match random_particle_kinetic_energy f k np d x sg with Some v => v | None => 0 end) =
  match laplacian_kinetic_energy f np d x with Some v => v | None => 0 end.
Proof.
  intros HR Hk Hd Eq Hq. unfold laplacian_kinetic_energy. rewrite laplacian_full by assumption. cbn [option_map].
  set (h := fun a => Rsum d (fun c => Derive (line f x a c) 0 ^ 2 + Derive (Derive (line f x a c)) 0)).
  rewrite (average_ext np _ (fun sg => - (1 / 2) * (INR (np * d) / INR (3 * k)) * Rsum q (fun i => h (sg i)))).
  - rewrite average_scal, average_first by assumption. change (Rsum np (fun i => Rsum d (fun c => Derive (line f x i c) 0 ^ 2 + Derive (Derive (line f x i c)) 0))) with (Rsum np h).
    rewrite Eq, !mult_INR. assert (0 < q)%nat by nia. pose proof (INR_pos q ltac:(lia)). pose proof (INR_pos d ltac:(lia)). pose proof (INR_pos np ltac:(lia)).
    field. repeat split; lra.
  - intros sg Hsg. unfold random_particle_kinetic_energy, laplacian_psi_over_psi. destruct k as [|k]; [lia|]. cbn [option_map].
    rewrite Eq, Rsum_flat.
    rewrite (Rsum_ext q _ (fun i => h (sg i))); [unfold Rdiv; ring|].
    intros i Hi. unfold h. apply Rsum_ext. intros c Hc.
    assert (Hb : (i * d + c < np * d)%nat) by nia.
    replace (Nat.min (i * d + c) (np * d - 1)) with (i * d + c)%nat by lia.
    destruct (divmod_flat d i c Hc) as [-> ->].
    apply (scan_term np d f x (sg i) c HR); [|assumption]. apply (renumbering_bound np sg Hsg). lia.
Qed.
