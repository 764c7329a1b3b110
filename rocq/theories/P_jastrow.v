(** * Permutation invariance of invariant tensors and Jastrow factors (C49, C50) *)
From Coq Require Import Reals List Bool Arith Lia Permutation Lra.
From Verif Require Import XReal Rsum M_slog M_models S_models P_xsum P_split P_equiv P_equiv2 P_slog.
Import ListNotations.
Local Open Scope R_scope.

(** ** Invariant tensors *)
Lemma split_mean_spin sp sizes x : describes sp sizes -> length x = list_sum sizes -> split_mean sp x = spin_means sizes x.
Proof. intros D L. unfold split_mean, spin_means. rewrite (pieces_cut sp sizes x D L). reflexivity. Qed.

Lemma split_mean_dense_invariant sp ps sizes s x d : describes sp sizes -> keeps_spins sizes s -> (0 < list_sum sizes)%nat -> shape2 (list_sum sizes) d x ->
  split_mean_dense sp ps (reorder s x) = split_mean_dense sp ps x.
Proof.
  intros D K N Sx. unfold split_mean_dense. pose proof Sx as (L & _). rewrite !(split_mean_spin sp sizes) by (rewrite ?reorder_length; assumption).
  rewrite (spin_means_reorder sizes s x d K Sx N). reflexivity.
Qed.
Definition bf_ok (sizes : list nat) (bf : option (list block)) : Prop := match bf with Some bs => blocks_ok sizes bs | None => True end.
Lemma backflow_equivariant bs sizes s x y d d2 : blocks_ok sizes bs -> keeps_spins sizes s -> (0 < list_sum sizes)%nat ->
  shape2 (list_sum sizes) d x -> shape_opt (list_sum sizes) d2 y -> backflow bs (reorder s x) (reorder_opt2 s y) = reorder s (backflow bs x y).
Proof.
  intros B K N Sx Sy. unfold backflow. rewrite (backflow_streams_equivariant bs sizes s B K N x y d d2 Sx Sy). reflexivity.
Qed.
Lemma backflow_shape bs sizes x y d d2 : blocks_ok sizes bs -> shape2 (list_sum sizes) d x -> shape_opt (list_sum sizes) d2 y ->
  exists d', shape2 (list_sum sizes) d' (backflow bs x y).
Proof. intros B Sx Sy. destruct (backflow_streams_shape bs sizes B x y d d2 Sx Sy) as (d' & _ & H & _). exists d'. exact H. Qed.

Lemma invariant_tensor_invariant sp bf ps sizes s x y d d2 : describes sp sizes -> bf_ok sizes bf -> keeps_spins sizes s -> (0 < list_sum sizes)%nat ->
  shape2 (list_sum sizes) d x -> shape_opt (list_sum sizes) d2 y ->
  invariant_tensor sp bf ps (reorder s x) (reorder_opt2 s y) = invariant_tensor sp bf ps x y.
Proof.
  intros D B K N Sx Sy. unfold invariant_tensor. cbv zeta. f_equal. destruct bf as [bs|].
  - rewrite (backflow_equivariant bs sizes s x y d d2 B K N Sx Sy). destruct (backflow_shape bs sizes x y d d2 B Sx Sy) as (d' & S').
    apply (split_mean_dense_invariant sp _ sizes s _ d' D K N S').
  - apply (split_mean_dense_invariant sp _ sizes s _ d D K N Sx).
Qed.

Lemma backflow_jastrow_invariant bf logabs sizes s x y z d d2 : bf_ok sizes bf -> keeps_spins sizes s -> (0 < list_sum sizes)%nat ->
  shape2 (list_sum sizes) d x -> shape_opt (list_sum sizes) d2 y -> length z = list_sum sizes ->
  backflow_jastrow bf logabs (reorder s x) (reorder_opt2 s y) (reorder s z) = backflow_jastrow bf logabs x y z.
Proof.
  intros B K N Sx Sy Lz. pose proof K as (H & _). unfold backflow_jastrow. cbv zeta.
  assert (E : forall w : arr2, length w = list_sum sizes -> xdiv (xsum (map norm (reorder s w))) (Fin (INR (length (reorder s w)))) =
                                                    xdiv (xsum (map norm w)) (Fin (INR (length w)))).
  { intros w Lw. rewrite reorder_length. f_equal. apply xsum_perm. apply Permutation_map. apply reorder_perm. rewrite Lw. exact H. }
  destruct bf as [bs|].
  - rewrite (backflow_equivariant bs sizes s x y d d2 B K N Sx Sy). destruct (backflow_shape bs sizes x y d d2 B Sx Sy) as (d' & (L' & _)).
    rewrite E by exact L'. reflexivity.
  - rewrite E by exact Lz. reflexivity.
Qed.

Lemma one_body_invariant k logabs s r : renumbering (length r) s -> one_body_exp_decay k logabs (reorder s r) = one_body_exp_decay k logabs r.
Proof.
  intros H. unfold one_body_exp_decay. cbv zeta. set (f := fun row : arr2 => _). rewrite (xsum_perm (map f (reorder s r)) (map f r)); [reflexivity|].
  apply Permutation_map. apply reorder_perm. exact H.
Qed.

(** ** Real-valued configurations *)
Lemma zipw_fin (f : xr -> xr -> xr) (g : R -> R -> R) a b : (forall u v, f (Fin u) (Fin v) = Fin (g u v)) ->
  zipw f (map Fin a) (map Fin b) = map Fin (zipw g a b).
Proof. intros H. rewrite zipw_map_l, zipw_map_r, map_zipw. apply zipw_ext. exact H. Qed.

Lemma sum_sq_nonneg l : 0 <= lsum (map (fun a => a * a) l).
Proof. apply lsum_nonneg. intros x Hx. apply in_map_iff in Hx. destruct Hx as (a & <- & _). nra. Qed.
Lemma xsqrt_fin r : 0 <= r -> xsqrt (Fin r) = Fin (sqrt r).
Proof. intros H. cbn. destruct (Rlt_dec r 0) as [E|E]; [lra|reflexivity]. Qed.
Lemma norm_fin v : norm (map Fin v) = Fin (sqrt (lsum (map (fun a => a * a) v))).
Proof.
  unfold norm. rewrite map_map. rewrite <- (map_map (fun a => a * a) Fin). rewrite xsum_fin. apply xsqrt_fin. apply sum_sq_nonneg.
Qed.
Lemma sub_fin u v : xsub (Fin u) (Fin v) = Fin (u - v). Proof. reflexivity. Qed.
Lemma norm_disp a b : norm (zipw xsub (map Fin a) (map Fin b)) = Fin (edist a b).
Proof.
  rewrite (zipw_fin xsub Rminus a b sub_fin), norm_fin. unfold edist. do 3 f_equal. unfold zipw. rewrite map_map. apply map_ext. intros p. ring.
Qed.
Lemma edist_sym a b : edist a b = edist b a.
Proof.
  unfold edist. f_equal. revert b. induction a as [|u a IH]; intros [|v b]; try reflexivity. cbn [combine map lsum fold_right fst snd]. fold (lsum (map (fun p => (fst p - snd p) ^ 2) (combine a b))).
  fold (lsum (map (fun p => (fst p - snd p) ^ 2) (combine b a))). rewrite IH. ring.
Qed.
Lemma edist_refl a : edist a a = 0.
Proof.
  unfold edist. rewrite <- sqrt_0. f_equal. induction a as [|u a IH]; [reflexivity|]. cbn [combine map lsum fold_right fst snd].
  fold (lsum (map (fun p => (fst p - snd p) ^ 2) (combine a a))). rewrite IH. ring.
Qed.
Lemma edist_nonneg a b : 0 <= edist a b. Proof. apply sqrt_pos. Qed.

Lemma displacements_fin x y : displacements (fin2 x) (fin2 y) = map (fun a => map (fun b => zipw xsub (map Fin a) (map Fin b)) y) x.
Proof. unfold displacements, fin2. rewrite map_map. apply map_ext. intros a. rewrite map_map. reflexivity. Qed.

Lemma softened_0 r : 0 <= r -> softened (Fin 0) (Fin r) = Fin r.
Proof.
  intros H. unfold softened. cbn [xmul xadd]. rewrite Rmult_0_l, Rplus_0_r. rewrite xsqrt_fin by nra. rewrite sub_fin. rewrite sqrt_square by exact H. f_equal. lra.
Qed.
Lemma add_eye_fin v e : map (fun a => xadd a (Fin e)) (map Fin v) = map Fin (map (fun a => a + e) v).
Proof. rewrite !map_map. reflexivity. Qed.

(** The electron-electron distance matrix of a real configuration. *)
Lemma safe_diag_fin x :
  compute_ee_norm_with_safe_diag (displacements (fin2 x) (fin2 x)) (Fin 0) =
  map (fun i => map (fun j => Fin (edist (nth i x []) (nth j x []))) (seq 0 (length x))) (seq 0 (length x)).
Proof.
  assert (Sq : square (length x) (displacements (fin2 x) (fin2 x))).
  { pose proof (displacements_square (fin2 x)) as Sq. unfold fin2 in Sq at 1. rewrite map_length in Sq. exact Sq. }
  rewrite (safe_diag_pointwise (length x) _ (Fin 0) Sq). apply map_ext_in. intros i Hi. apply in_seq in Hi. apply map_ext_in. intros j Hj. apply in_seq in Hj.
  assert (E : nth j (nth i (displacements (fin2 x) (fin2 x)) []) [] = zipw xsub (map Fin (nth i x [])) (map Fin (nth j x []))).
  { rewrite displacements_fin. set (f := fun a => map (fun b => zipw xsub (map Fin a) (map Fin b)) x).
    rewrite (nth_indep (map f x) [] (f [])) by (rewrite map_length; lia). rewrite map_nth. unfold f.
    set (g := fun b => zipw xsub (map Fin (nth i x [])) (map Fin b)). rewrite (nth_indep (map g x) [] (g [])) by (rewrite map_length; lia). apply map_nth. }
  rewrite E. destruct (Nat.eqb_spec i j) as [->|NE].
  - unfold eye. rewrite Nat.eqb_refl. rewrite (zipw_fin xsub Rminus _ _ sub_fin), add_eye_fin, norm_fin.
    rewrite softened_0 by apply sqrt_pos. rewrite edist_refl. cbn [xmul xsub xadd xopp]. f_equal. ring.
  - unfold eye. destruct (Nat.eqb_spec i j) as [C|_]; [contradiction|]. rewrite (zipw_fin xsub Rminus _ _ sub_fin), add_eye_fin.
    rewrite (map_ext (fun a => a + 0) (fun a => a)) by (intros; ring). rewrite map_id, <- (zipw_fin xsub Rminus _ _ sub_fin), norm_disp.
    rewrite softened_0 by apply edist_nonneg. cbn [xmul xsub xadd xopp]. f_equal. ring.
Qed.

(** Each pair once is half of all ordered pairs. *)
Lemma triangle_half n (f : nat -> nat -> R) : (forall i j, f i j = f j i) -> (forall i, f i i = 0) ->
  Rsum n (fun i => Rsum n (fun j => if Nat.leb i j then f i j else 0)) = / 2 * Rsum n (fun i => Rsum n (fun j => f i j)).
Proof.
  intros Sy Z. set (T := Rsum n (fun i => Rsum n (fun j => if Nat.leb i j then f i j else 0))).
  assert (E : T = Rsum n (fun i => Rsum n (fun j => if Nat.leb j i then f i j else 0))).
  { unfold T. rewrite Rsum_swap. apply Rsum_ext. intros i _. apply Rsum_ext. intros j _. rewrite (Sy j i). reflexivity. }
  assert (D : T + T = Rsum n (fun i => Rsum n (fun j => f i j))).
  { rewrite E at 2. unfold T. rewrite <- Rsum_plus. apply Rsum_ext. intros i _. rewrite <- Rsum_plus. apply Rsum_ext. intros j _.
    destruct (Nat.leb_spec i j) as [A|A], (Nat.leb_spec j i) as [B|B]; try lia; try lra. assert (i = j) as -> by lia. rewrite Z. lra. }
  lra.
Qed.
Definition all_total {A} (f : A -> A -> R) (l : list A) : R := lsum (map (fun a => lsum (map (f a) l)) l).
Lemma pair_total_half {A} (f : A -> A -> R) l : (forall a b, f a b = f b a) -> (forall a, f a a = 0) -> pair_total f l = / 2 * all_total f l.
Proof.
  intros Sy Z. unfold all_total. induction l as [|a l IH]; [cbn; lra|]. cbn [pair_total map lsum fold_right]. fold (lsum (map (f a) l)).
  rewrite IH. fold (lsum (map (fun b => f b a + fold_right Rplus 0 (map (f b) l)) l)).
  change (lsum (map (fun b => f b a + fold_right Rplus 0 (map (f b) l)) l)) with (lsum (map (fun b => f b a + lsum (map (f b) l)) l)).
  rewrite lsum_map_plus. rewrite (map_ext (fun b => f b a) (f a)) by (intros; apply Sy). rewrite Z. lra.
Qed.
Lemma all_total_perm {A} (f : A -> A -> R) l l' : Permutation l l' -> all_total f l = all_total f l'.
Proof.
  intros P. unfold all_total. rewrite (lsum_perm _ _ (Permutation_map (fun a => lsum (map (f a) l)) P)). f_equal. apply map_ext. intros a.
  apply lsum_perm, Permutation_map, P.
Qed.
Lemma all_total_idx {A} (f : A -> A -> R) l d : all_total f l = Rsum (length l) (fun i => Rsum (length l) (fun j => f (nth i l d) (nth j l d))).
Proof.
  unfold all_total. assert (G : forall g : A -> R, lsum (map g l) = Rsum (length l) (fun i => g (nth i l d))).
  { intros g. rewrite <- (map_seq_nth l d) at 1. rewrite map_map, lsum_map_seq. reflexivity. }
  rewrite G. apply Rsum_ext. intros i _. apply G.
Qed.

Definition ei_total (ions : list (list R)) (q : list R) (x : list (list R)) : R :=
  lsum (map (fun a => lsum (map (fun p => snd p * edist a (fst p)) (combine ions q))) x).

Lemma ei_sum_fin a ions q : xsum (zipw xmul (map norm (map (fun b => zipw xsub (map Fin a) (map Fin b)) ions)) (map Fin q)) =
  Fin (lsum (map (fun p => snd p * edist a (fst p)) (combine ions q))).
Proof.
  rewrite map_map. rewrite zipw_map_l, zipw_map_r. unfold zipw.
  rewrite (map_ext (fun p => xmul (norm (zipw xsub (map Fin a) (map Fin (fst p)))) (Fin (snd p))) (fun p => Fin (snd p * edist a (fst p)))).
  - rewrite <- (map_map (fun p => snd p * edist a (fst p)) Fin). apply xsum_fin.
  - intros p. rewrite norm_disp. cbn. f_equal. ring.
Qed.

Lemma two_body_real ions q ee c logabs x : 
  two_body_exp_decay (map Fin q) (Fin ee) (Fin c) logabs (displacements (fin2 x) (fin2 ions)) (displacements (fin2 x) (fin2 x)) =
  let J := ee * pair_total edist x - ei_total ions q x + c in Fin (if logabs then J else exp J).
Proof.
  unfold two_body_exp_decay. cbv zeta. set (n := length x). rewrite safe_diag_fin. fold n.
  rewrite mapi_map_seq.
  assert (EE : map (fun i => xsum (mapi (fun j v => if Nat.leb i j then v else Fin 0) (map (fun j => Fin (edist (nth i x []) (nth j x []))) (seq 0 n)))) (seq 0 n)
             = map (fun i => Fin (Rsum n (fun j => if Nat.leb i j then edist (nth i x []) (nth j x []) else 0))) (seq 0 n)).
  { apply map_ext. intros i. rewrite mapi_map_seq.
    rewrite (map_ext (fun j => if Nat.leb i j then Fin (edist (nth i x []) (nth j x [])) else Fin 0) (fun j => Fin (if Nat.leb i j then edist (nth i x []) (nth j x []) else 0)))
      by (intros j; destruct (Nat.leb i j); reflexivity).
    rewrite <- (map_map (fun j => if Nat.leb i j then edist (nth i x []) (nth j x []) else 0) Fin), xsum_fin, lsum_map_seq. reflexivity. }
  rewrite EE. clear EE.
  assert (EI : map (fun row : list xr => xsum (zipw xmul row (map Fin q))) (map (map norm) (displacements (fin2 x) (fin2 ions)))
             = map (fun i => Fin (lsum (map (fun p => snd p * edist (nth i x []) (fst p)) (combine ions q)))) (seq 0 n)).
  { rewrite displacements_fin, !map_map. rewrite <- (map_seq_nth x []) at 1. fold n. rewrite map_map. apply map_ext. intros i. apply ei_sum_fin. }
  rewrite EI. clear EI. rewrite zipw_map_l, zipw_map_r, zipw_same.
  rewrite (map_ext _ (fun i => Fin (ee * Rsum n (fun j => if Nat.leb i j then edist (nth i x []) (nth j x []) else 0) -
             lsum (map (fun p => snd p * edist (nth i x []) (fst p)) (combine ions q))))) by (intros i; reflexivity).
  rewrite <- (map_map (fun i => ee * Rsum n (fun j => if Nat.leb i j then edist (nth i x []) (nth j x []) else 0) -
             lsum (map (fun p => snd p * edist (nth i x []) (fst p)) (combine ions q))) Fin), xsum_fin.
  assert (V : lsum (map (fun i => ee * Rsum n (fun j => if Nat.leb i j then edist (nth i x []) (nth j x []) else 0) -
             lsum (map (fun p => snd p * edist (nth i x []) (fst p)) (combine ions q))) (seq 0 n)) = ee * pair_total edist x - ei_total ions q x).
  { rewrite lsum_map_minus, lsum_map_scal. f_equal.
    - rewrite lsum_map_seq. cbn [Nat.add]. rewrite (pair_total_half edist x edist_sym edist_refl), (all_total_idx edist x []). fold n. f_equal.
      apply (triangle_half n (fun i j => edist (nth i x []) (nth j x []))); [intros; apply edist_sym|intros; apply edist_refl].
    - unfold ei_total. set (g := fun a => lsum (map (fun p => snd p * edist a (fst p)) (combine ions q))).
      change (lsum (map (fun i => g (nth i x [])) (seq 0 n)) = lsum (map g x)). rewrite <- (map_map (fun i => nth i x []) g). unfold n. rewrite map_seq_nth. reflexivity. }
  rewrite V. cbn [xadd]. destruct logabs; reflexivity.
Qed.

Lemma two_body_perm ions q ee c x x' : Permutation x x' ->
  ee * pair_total edist x - ei_total ions q x + c = ee * pair_total edist x' - ei_total ions q x' + c.
Proof.
  intros P. rewrite !(pair_total_half edist _ edist_sym edist_refl), (all_total_perm edist x x' P). f_equal. f_equal. apply lsum_perm, Permutation_map, P.
Qed.

(** ** Electrons at the ions *)
Lemma lsum_at_ions {A} (g : A -> R) ions Z : lsum (map g (electrons_at_ions ions Z)) = lsum (map (fun p => INR (snd p) * g (fst p)) (combine ions Z)).
Proof.
  unfold electrons_at_ions. generalize (combine ions Z) as l. intros l. rewrite concat_map, lsum_concat, !map_map. f_equal. apply map_ext. intros p.
  induction (snd p) as [|k IH]; [cbn; lra|]. rewrite S_INR. cbn [repeat map lsum fold_right]. fold (lsum (map g (repeat (fst p) k))). rewrite IH. lra.
Qed.
Lemma combine_INR {A} (ions : list A) Z : combine ions (map INR Z) = map (fun p => (fst p, INR (snd p))) (combine ions Z).
Proof. revert Z. induction ions as [|a r IH]; intros [|z Z]; try reflexivity. cbn [map combine fst snd]. rewrite IH. reflexivity. Qed.

Definition ion_total (ions : list (list R)) (Z : list nat) : R :=
  lsum (map (fun p => lsum (map (fun p' => INR (snd p) * INR (snd p') * edist (fst p) (fst p')) (combine ions Z))) (combine ions Z)).

Lemma at_ions_values ions Z : all_total edist (electrons_at_ions ions Z) = ion_total ions Z /\ ei_total ions (map INR Z) (electrons_at_ions ions Z) = ion_total ions Z.
Proof.
  unfold all_total, ei_total, ion_total. rewrite !lsum_at_ions. split; f_equal; apply map_ext; intros p.
  - rewrite lsum_at_ions, <- lsum_map_scal. f_equal. apply map_ext. intros p'. ring.
  - rewrite combine_INR, map_map. cbn [fst snd]. rewrite <- lsum_map_scal. f_equal. apply map_ext. intros p'. ring.
Qed.

Lemma scale_factor_real ions Z : length ions = length Z -> chargeless_scale_factor (fin2 ions) (map Fin (map INR Z)) = Fin (/ 2 * ion_total ions Z).
Proof.
  intros L. unfold chargeless_scale_factor. rewrite displacements_fin.
  assert (E : xsum (concat (zipw (fun row qi => zipw (fun v qj => xmul (norm v) (xmul qi qj)) row (map Fin (map INR Z)))
      (map (fun a => map (fun b => zipw xsub (map Fin a) (map Fin b)) ions) ions) (map Fin (map INR Z)))) = Fin (ion_total ions Z)).
  { rewrite zipw_map_l, !zipw_map_r. unfold ion_total.
    transitivity (xsum (concat (map (map Fin) (map (fun p => map (fun p' => INR (snd p) * INR (snd p') * edist (fst p) (fst p')) (combine ions Z)) (combine ions Z))))).
    - do 2 f_equal. rewrite (map_map _ (map Fin)). match goal with |- zipw ?F ions Z = _ => change (map (fun p => F (fst p) (snd p)) (combine ions Z) = map (fun p => map Fin (map (fun p' => INR (snd p) * INR (snd p') * edist (fst p) (fst p')) (combine ions Z))) (combine ions Z)) end.
      apply map_ext. intros p. cbv beta. rewrite zipw_map_l, !zipw_map_r, (map_map _ Fin).
      match goal with |- zipw ?F ions Z = _ => change (map (fun p => F (fst p) (snd p)) (combine ions Z) = map (fun p' => Fin (INR (snd p) * INR (snd p') * edist (fst p) (fst p'))) (combine ions Z)) end.
      apply map_ext. intros p'. cbv beta. rewrite norm_disp. cbn. f_equal. ring.
    - rewrite <- concat_map, xsum_fin, lsum_concat, map_map. reflexivity. }
  rewrite E. cbn. f_equal. lra.
Qed.
