(** * Values of features, orbitals and Jastrow factors: proofs *)
From Coq Require Import Reals List Arith Lia Lra Bool Psatz.
From Verif Require Import XReal Rsum M_slog M_models M_antisym S_physics S_models S_antisym S_features P_slog P_split P_models P_equiv2 P_jastrow P_antisym P_leibniz P_antieq.
Import ListNotations.
Local Open Scope R_scope.

Lemma minus_zipw a b : zipw Rminus a b = minus a b. Proof. reflexivity. Qed.
Lemma sq_sum v : lsum (map (fun a => a * a) v) = lsum (map (fun a => a ^ 2) v).
Proof. f_equal. apply map_ext. intros. ring. Qed.
Lemma norm_length v : norm (map Fin v) = Fin (length_of v).
Proof. rewrite norm_fin, sq_sum. reflexivity. Qed.
Lemma edist_minus a b : edist a b = length_of (minus a b).
Proof. unfold edist, length_of, minus. rewrite map_map. reflexivity. Qed.
Lemma length_of_nonneg v : 0 <= length_of v. Proof. apply sqrt_pos. Qed.
Lemma softened_fin s r : softened (Fin s) (Fin r) = Fin (soft_length s r).
Proof.
  unfold softened, soft_length. cbn [xmul xadd]. rewrite xsqrt_fin by nra. rewrite sub_fin. do 3 f_equal. ring.
Qed.
Lemma length_of_scale k v : length_of (map (fun a => a * k) v) = Rabs k * length_of v.
Proof.
  unfold length_of. rewrite map_map. rewrite (map_ext (fun a => (a * k) ^ 2) (fun a => a ^ 2 * (k ^ 2))) by (intros; ring).
  rewrite <- (map_map (fun a => a ^ 2) (fun x => x * k ^ 2)), lsum_scale_r, sqrt_mult_alt.
  - rewrite Rmult_comm. f_equal. rewrite <- Rsqr_pow2. apply sqrt_Rsqr_abs.
  - rewrite <- sq_sum. apply sum_sq_nonneg.
Qed.

Lemma ion_features ions x s :
  compute_electron_ion (fin2 x) (Some (fin2 ions)) true (Fin s) =
  (Rows (map (fun a => concat (map (fun b => map Fin (minus a b ++ [soft_length s (edist a b)])) ions)) x),
   Some (map (fun a => map (fun b => map Fin (minus a b)) ions) x)).
Proof.
  unfold compute_electron_ion. cbv zeta. rewrite displacements_fin. f_equal.
  - f_equal. rewrite map_map. apply map_ext. intros a. f_equal. rewrite map_map. apply map_ext. intros b.
    rewrite norm_disp, softened_fin, (zipw_fin xsub Rminus a b sub_fin), minus_zipw, map_app. reflexivity.
  - f_equal. apply map_ext. intros a. apply map_ext. intros b. rewrite (zipw_fin xsub Rminus a b sub_fin). reflexivity.
Qed.
Lemma disp_nth x i j : (i < length x)%nat -> (j < length x)%nat ->
  nth j (nth i (displacements (fin2 x) (fin2 x)) []) [] = map Fin (minus (nth i x []) (nth j x [])).
Proof.
  intros Hi Hj. rewrite displacements_fin. set (f := fun a => map (fun b => zipw xsub (map Fin a) (map Fin b)) x).
  rewrite (nth_indep (map f x) [] (f [])) by (rewrite map_length; lia). rewrite map_nth. unfold f.
  set (g := fun b => zipw xsub (map Fin (nth i x [])) (map Fin b)). rewrite (nth_indep (map g x) [] (g [])) by (rewrite map_length; lia).
  rewrite map_nth. unfold g. rewrite (zipw_fin xsub Rminus _ _ sub_fin). reflexivity.
Qed.
Lemma pair_features x s i j : (i < length x)%nat -> (j < length x)%nat ->
  nth j (nth i (fst (compute_electron_electron (fin2 x) true (Fin s))) []) [] =
  map Fin (minus (nth i x []) (nth j x []) ++ [if Nat.eqb i j then 0 else soft_length s (edist (nth i x []) (nth j x []))]).
Proof.
  intros Hi Hj. unfold compute_electron_electron. cbv zeta. cbn [fst].
  assert (Sq : square (length x) (displacements (fin2 x) (fin2 x))).
  { pose proof (displacements_square (fin2 x)) as Sq. unfold fin2 in Sq at 1. rewrite map_length in Sq. exact Sq. }
  destruct Sq as (L1 & L2). rewrite (safe_diag_pointwise (length x) _ (Fin s)) by (split; assumption).
  assert (Li : length (nth i (displacements (fin2 x) (fin2 x)) []) = length x).
  { rewrite Forall_forall in L2. apply L2. apply nth_In. rewrite L1. exact Hi. }
  rewrite (zipw_nth _ _ _ i [] [] []) by (rewrite ?L1, ?map_length, ?seq_length; exact Hi). rewrite nth_map_seq by exact Hi.
  rewrite (zipw_nth _ _ _ j [] (Fin 0) []) by (rewrite ?Li, ?map_length, ?seq_length; exact Hj). rewrite nth_map_seq by exact Hj.
  rewrite disp_nth by assumption. rewrite map_app. f_equal. cbn [map]. f_equal. rewrite add_eye_fin || unfold eye. destruct (Nat.eqb_spec i j) as [->|Ne].
  - rewrite add_eye_fin, norm_length, softened_fin. cbn. f_equal. ring.
  - rewrite add_eye_fin. rewrite (map_ext (fun a => a + 0) (fun a => a)) by (intros; ring). rewrite map_id, norm_length, softened_fin, edist_minus. cbn. f_equal. ring.
Qed.

(** ** Softening *)
Lemma soft_0 r : 0 <= r -> soft_length 0 r = r.
Proof. intros H. unfold soft_length. replace (r ^ 2 + 0 ^ 2) with (r * r) by ring. rewrite sqrt_square by exact H. ring. Qed.
Lemma soft_at_0 s : 0 <= s -> soft_length s 0 = 0.
Proof. intros H. unfold soft_length. replace (0 ^ 2 + s ^ 2) with (s * s) by ring. rewrite sqrt_square by exact H. ring. Qed.
Lemma soft_bounds s r : 0 <= s -> 0 <= r -> r - s <= soft_length s r <= r /\ 0 <= soft_length s r.
Proof.
  intros Hs Hr. unfold soft_length. assert (A : r <= sqrt (r ^ 2 + s ^ 2)).
  { rewrite <- (sqrt_square r Hr) at 1. apply sqrt_le_1; nra. }
  assert (B : s <= sqrt (r ^ 2 + s ^ 2)). { rewrite <- (sqrt_square s Hs) at 1. apply sqrt_le_1; nra. }
  assert (C : sqrt (r ^ 2 + s ^ 2) <= r + s). { rewrite <- (sqrt_square (r + s)) by lra. apply sqrt_le_1; nra. }
  lra.
Qed.
Lemma soft_incr s r r' : 0 <= r -> r < r' -> soft_length s r < soft_length s r'.
Proof. intros Hr H. unfold soft_length. assert (sqrt (r ^ 2 + s ^ 2) < sqrt (r' ^ 2 + s ^ 2)) by (apply sqrt_lt_1; nra). lra. Qed.

(** ** One-body Jastrow factor *)
Lemma one_body_real k ions x logabs :
  one_body_exp_decay (Fin k) logabs (displacements (fin2 x) (fin2 ions)) =
  let J := - (Rabs k * lsum (map (fun a => lsum (map (edist a) ions)) x)) in Fin (if logabs then J else exp J).
Proof.
  unfold one_body_exp_decay. rewrite displacements_fin, map_map.
  rewrite (map_ext _ (fun a => Fin (Rabs k * lsum (map (edist a) ions)))).
  - rewrite <- (map_map (fun a => Rabs k * lsum (map (edist a) ions)) Fin), xsum_fin, lsum_map_scal. cbv zeta. destruct logabs; reflexivity.
  - intros a. rewrite map_map. rewrite (map_ext _ (fun b => Fin (Rabs k * edist a b))).
    + rewrite <- (map_map (fun b => Rabs k * edist a b) Fin), xsum_fin. f_equal. apply lsum_map_scal.
    + intros b. rewrite (zipw_fin xsub Rminus a b sub_fin), minus_zipw, map_map.
      rewrite <- (map_map (fun u => u * k) Fin), norm_length, length_of_scale, edist_minus. reflexivity.
Qed.

(** ** Products of determinants *)
Lemma slogdet_fin2 n m : square_of n m -> linalg_slogdet (fin2 m) = Some (slog_of (Det.det n (entry m))).
Proof. intros Sq. unfold linalg_slogdet. rewrite (det_fin2 n m Sq). cbn [option_map]. f_equal. apply to_slog_fin. Qed.
Lemma reduce_slogs d ds : reduce slog_multiply (map slog_of (d :: ds)) = Some (slog_of (product (d :: ds))).
Proof.
  unfold reduce. cbn [map]. f_equal. revert d. induction ds as [|e ds IH]; intros d; [cbn; f_equal; ring|].
  cbn [map fold_left]. rewrite slog_multiply_of, IH. f_equal. unfold product. cbn [fold_right]. ring.
Qed.

Lemma fold_snd ds : forall a, snd (fold_left slog_multiply (map slog_of ds) a) = fold_left xadd (map snd (map slog_of ds)) (snd a).
Proof. induction ds as [|e ds IH]; intros a; [reflexivity|]. cbn [map fold_left]. rewrite IH. reflexivity. Qed.
Lemma reduce_logs d ds : reduce xadd (map snd (map slog_of (d :: ds))) = Some (snd (slog_of (product (d :: ds)))).
Proof.
  pose proof (reduce_slogs d ds) as H. unfold reduce in *. cbn [map] in H |- *. apply (f_equal (option_map snd)) in H. cbn [option_map] in H. rewrite fold_snd in H. exact H.
Qed.
Lemma sequence_map_some {A B} (f : A -> option B) (g : A -> B) l : Forall (fun a => f a = Some (g a)) l -> sequence (map f l) = Some (map g l).
Proof. induction 1 as [|a l E _ IH]; [reflexivity|]. cbn [map sequence]. rewrite E. cbn. rewrite IH. reflexivity. Qed.
Lemma products_fin2 ms : ms <> [] -> Forall (fun m => square_of (length m) m) ms ->
  let D := product (map (fun m => Det.det (length m) (entry m)) ms) in
  slogdet_product (map fin2 ms) = Some (slog_of D) /\ logdet_product (map fin2 ms) = Some (snd (slog_of D)).
Proof.
  intros Ne F D. unfold slogdet_product, logdet_product.
  assert (E : sequence (map linalg_slogdet (map fin2 ms)) = Some (map slog_of (map (fun m => Det.det (length m) (entry m)) ms))).
  { rewrite !map_map. apply sequence_map_some. eapply Forall_impl; [|exact F]. intros m Sq. apply slogdet_fin2. exact Sq. }
  rewrite E. unfold D. destruct ms as [|m ms]; [congruence|]. cbn [map]. split; [apply (reduce_slogs (Det.det (length m) (entry m)))|apply (reduce_logs (Det.det (length m) (entry m)))].
Qed.

(** ** Antiequivariant outputs times features *)
Lemma split_at_map {A B} (f : A -> B) idx : forall start l, split_at start idx (map f l) = map (map f) (split_at start idx l).
Proof.
  induction idx as [|i idx IH]; intros start l; cbn [split_at map]; [rewrite skipn_map; reflexivity|]. rewrite IH, <- firstn_map, skipn_map. reflexivity.
Qed.
Lemma split_map {A B} (f : A -> B) s l : split s (map f l) = option_map (map (map f)) (split s l).
Proof.
  unfold split. destruct s as [k|idx]; [|cbn [option_map]; rewrite split_at_map; reflexivity].
  destruct (Nat.eqb k 0); [reflexivity|]. rewrite map_length. destruct (Nat.eqb (length l mod k) 0); [|reflexivity]. cbn [option_map]. rewrite split_at_map. reflexivity.
Qed.
Lemma slog_features_fin sp (antieq : list (list R)) (h : list (list R)) :
  multiply_slog_antieq_by_eq_features (map (map (fun a => array_to_slog (Fin a))) antieq) (fin2 h) sp =
  option_map (map (map (map array_to_slog))) (multiply_antieq_by_eq_features (map (map Fin) antieq) (fin2 h) sp).
Proof.
  unfold multiply_slog_antieq_by_eq_features, multiply_antieq_by_eq_features, fin2. rewrite split_map.
  destruct (split sp h) as [ps|]; [|reflexivity]. cbn [option_map]. f_equal. rewrite map_zipw, !zipw_map_r, !zipw_map_l. apply zipw_ext. intros rows ant.
  rewrite map_zipw, !zipw_map_r, !zipw_map_l. apply zipw_ext. intros row a. rewrite !map_map. apply map_ext. intros f. cbn [xmul].
  rewrite !to_slog_fin. apply slog_multiply_of.
Qed.
(** Entry c of the product for the i-th electron of population b. *)
Lemma features_entry sp sizes (antieq : list (list R)) (h : list (list R)) d : describes sp sizes -> length h = list_sum sizes ->
  Forall2 (fun n v => length v = n) sizes antieq -> Forall (fun r => length r = d) h ->
  exists out, multiply_antieq_by_eq_features (map (map Fin) antieq) (fin2 h) sp = Some out /\
    forall b i c, (b < length sizes)%nat -> (i < nth b sizes 0)%nat -> (c < d)%nat ->
      nth c (nth i (nth b out []) []) NaN = Fin (entry (nth b (cut sizes h) []) i c * nth i (nth b antieq []) 0).
Proof.
  intros D L F W. unfold multiply_antieq_by_eq_features, fin2. rewrite split_map, (split_cut sp sizes h D L). cbn [option_map]. eexists. split; [reflexivity|].
  intros b i c Hb Hi Hc. assert (LA : length sizes = length antieq) by (clear - F; induction F; cbn; congruence).
  assert (Lb : length (nth b antieq []) = nth b sizes 0%nat).
  { clear - F Hb. revert b Hb. induction F as [|n v sizes antieq E F IH]; intros b Hb; [cbn in Hb; lia|]. destruct b; [exact E|]. cbn. apply IH. cbn in Hb. lia. }
  assert (Lc : length (nth b (cut sizes h) []) = nth b sizes 0%nat).
  { rewrite <- (map_nth (@length (list R))). rewrite cut_sizes by exact L. reflexivity. }
  rewrite (zipw_nth _ _ _ b [] [] []) by (rewrite ?map_length, ?cut_length; lia).
  rewrite (zipw_nth _ _ _ i [] (Fin 0) []).
  2: { change [] with (map (map Fin) (@nil (list R))). rewrite map_nth, map_length. lia. }
  2: { change [] with (map Fin (@nil R)). rewrite map_nth, map_length. lia. }
  change (@nil (list xr)) with (map (map Fin) (@nil (list R))). rewrite (map_nth (map (map Fin))). change (@nil xr) with (map Fin (@nil R)). rewrite !map_nth, map_map.
  assert (Lr : length (nth i (nth b (cut sizes h) []) []) = d).
  { rewrite Forall_forall in W. apply W. pose proof (cut_concat sizes h L) as Q. set (v := nth i (nth b (cut sizes h) []) []). rewrite <- Q. unfold v. clear Q. apply in_concat. exists (nth b (cut sizes h) []). split; apply nth_In; [rewrite cut_length|]; lia. }
  rewrite (nth_indep _ NaN (xmul (Fin 0) (Fin (nth i (nth b antieq []) 0)))) by (rewrite map_length; lia).
  rewrite (map_nth (fun x => xmul (Fin x) (Fin (nth i (nth b antieq []) 0)))). reflexivity.
Qed.

(** ** Orbitals *)
Lemma dense_nth features w (b : option (nat -> R)) l k d : (k < features)%nat ->
  nth k (dense features (fun i f => Fin (w i f)) (option_map (fun b k => Fin (b k)) b) (map Fin l)) d = Fin (column w l k + match b with Some b => b k | None => 0 end).
Proof.
  intros H. replace (option_map (fun b k => Fin (b k)) b) with (match b with None => None | Some b => Some (fun f => Fin (b f)) end) by (destruct b; reflexivity).
  rewrite dense_fin, nth_map_seq by exact H. reflexivity.
Qed.
Lemma scaled_fin l p k ion v : (k < ro_n p)%nat -> scaled_displacement l (of_real p) k ion (map Fin v) = map Fin (scaled (ol_isotropic l) p k ion v).
Proof.
  intros Hk. unfold scaled_displacement, scaled. destruct (ol_isotropic l); [rewrite !map_map; reflexivity|]. cbv zeta. rewrite map_length, map_map.
  apply map_ext_in. intros c Hc. apply in_seq in Hc. cbn [o_norb o_aniso of_real].
  rewrite (dense_nth (length v * ro_n p) (ro_A p ion) None v) by nia. f_equal. ring.
Qed.
Lemma envelope_fin l p soft rs k : (k < ro_n p)%nat -> ol_soft l = Fin soft ->
  envelope l (of_real p) (fin2 rs) k = Fin (real_envelope (ol_isotropic l) soft p rs k).
Proof.
  intros Hk Es. unfold envelope, real_envelope. unfold fin2. 
  assert (E : mapi (fun ion v => xmul (xexp (xopp (softened (ol_soft l) (norm (scaled_displacement l (of_real p) k ion v))))) (o_ion (of_real p) k ion)) (map (map Fin) rs) =
     map Fin (map (fun ion => ro_pi p k ion * exp (- soft_length soft (length_of (scaled (ol_isotropic l) p k ion (nth ion rs []))))) (seq 0 (length rs)))).
  { apply (list_eq_nth _ _ NaN); [rewrite mapi_length, !map_length, seq_length; reflexivity|]. intros i Hi. rewrite mapi_length, map_length in Hi.
    rewrite (mapi_nth _ _ i []) by (rewrite map_length; exact Hi). rewrite map_map, nth_map_seq by exact Hi.
    change (@nil xr) with (map Fin (@nil R)). rewrite map_nth, scaled_fin, norm_length, Es, softened_fin by exact Hk. cbn. f_equal. ring. }
  rewrite E, xsum_fin. f_equal. rewrite lsum_map_seq. reflexivity.
Qed.
Lemma orbitals_entry l ps soft sizes (h : list (list R)) (r : option (list (list (list R)))) : describes (ol_split l) sizes -> length h = list_sum sizes ->
  ol_splits l = map of_real ps -> length ps = length sizes -> ol_soft l = Fin soft -> match r with Some r => length r = list_sum sizes | None => True end ->
  forall b i k p, nth_error ps b = Some p -> (i < nth b sizes 0)%nat -> (k < ro_n p)%nat ->
    nth k (nth i (nth b (ferminet_orbitals l (fin2 h) (option_map (map fin2) r)) []) []) NaN =
    Fin (linear_part p (nth i (nth b (cut sizes h) []) []) k *
         match r with Some r => real_envelope (ol_isotropic l) soft p (nth i (nth b (cut sizes r) []) []) k | None => 1 end).
Proof.
  intros D L Ep Lp Es Lr b i k p Eb Hi Hk. assert (Hb : (b < length ps)%nat) by (apply nth_error_Some; congruence).
  assert (Lc : forall {A} (x : list (list A)), length x = list_sum sizes -> length (nth b (cut sizes x) []) = nth b sizes 0%nat).
  { intros A x Lx. rewrite <- (map_nth (@length (list A))). rewrite cut_sizes by exact Lx. reflexivity. }
  assert (Ed : nth b (map of_real ps) (of_real p) = of_real p) by (rewrite map_nth, (nth_error_nth ps b p Eb); reflexivity).
  assert (El : nth b (split_dense l (fin2 h)) [] = map (fun row => dense (ro_n p) (o_kernel (of_real p)) (o_bias (of_real p)) (map Fin row)) (nth b (cut sizes h) [])).
  { unfold split_dense. rewrite (pieces_cut (ol_split l) sizes) by (unfold fin2; rewrite ?map_length; assumption). rewrite Ep.
    rewrite (zipw_nth _ _ _ b [] (of_real p) []) by (rewrite ?cut_length, ?map_length; lia). rewrite Ed. unfold fin2. rewrite cut_map.
    change (@nil (list xr)) with (map (map Fin) (@nil (list R))). rewrite map_nth, map_map. reflexivity. }
  assert (Nl : forall row d, nth k (dense (ro_n p) (o_kernel (of_real p)) (o_bias (of_real p)) (map Fin row)) d = Fin (linear_part p row k)).
  { intros row d. cbn [o_kernel o_bias of_real]. rewrite dense_nth by exact Hk. reflexivity. }
  unfold ferminet_orbitals. destruct r as [r|]; cbn [option_map].
  - unfold tree_prod.
    assert (Ev : nth b (envelopes l (map fin2 r)) [] = map (fun row => map (envelope l (of_real p) (fin2 row)) (seq 0 (ro_n p))) (nth b (cut sizes r) [])).
    { unfold envelopes. rewrite (pieces_cut (ol_split l) sizes) by (rewrite ?map_length; assumption). rewrite Ep.
      rewrite (zipw_nth _ _ _ b [] (of_real p) []) by (rewrite ?cut_length, ?map_length; lia). rewrite Ed. rewrite cut_map.
      change (@nil (arr2)) with (map fin2 (@nil (list (list R)))). rewrite map_nth, map_map. reflexivity. }
    rewrite (zipw_nth _ _ _ b [] [] []).
    2: { unfold split_dense. rewrite zipw_length, (pieces_cut (ol_split l) sizes) by (unfold fin2; rewrite ?map_length; assumption). rewrite cut_length, Ep, map_length. lia. }
    2: { unfold envelopes. rewrite zipw_length, (pieces_cut (ol_split l) sizes) by (rewrite ?map_length; assumption). rewrite cut_length, Ep, map_length. lia. }
    rewrite El, Ev. rewrite (zipw_nth _ _ _ i [] [] []) by (rewrite map_length, Lc; assumption).
    set (f := fun row => dense (ro_n p) (o_kernel (of_real p)) (o_bias (of_real p)) (map Fin row)). set (e := fun row : list (list R) => map (envelope l (of_real p) (fin2 row)) (seq 0 (ro_n p))).
    rewrite (nth_indep (map f _) [] (f [])) by (rewrite map_length, Lc; assumption). rewrite (nth_indep (map e _) [] (e [])) by (rewrite map_length, Lc; assumption). rewrite !map_nth.
    unfold f, e. rewrite (zipw_nth _ _ _ k NaN NaN NaN).
    2: { unfold dense. rewrite map_length, seq_length. exact Hk. } 2: { rewrite map_length, seq_length. exact Hk. }
    rewrite Nl, nth_map_seq by exact Hk. rewrite (envelope_fin l p soft) by assumption. reflexivity.
  - rewrite El. set (f := fun row => dense (ro_n p) (o_kernel (of_real p)) (o_bias (of_real p)) (map Fin row)).
    rewrite (nth_indep (map f _) [] (f [])) by (rewrite map_length, Lc; assumption). rewrite map_nth. unfold f. rewrite Nl. f_equal. ring.
Qed.

(** ** Bounds on the envelope *)
Lemma Rsum_abs_le n f g : (forall i, (i < n)%nat -> Rabs (f i) <= g i) -> Rabs (Rsum n f) <= Rsum n g.
Proof.
  induction n as [|n IH]; intros H; cbn [Rsum]; [rewrite Rabs_R0; lra|]. eapply Rle_trans; [apply Rabs_triang|]. apply Rplus_le_compat; [apply IH; intros; apply H; lia|apply H; lia].
Qed.
Lemma envelope_bound iso soft p rs k : 0 <= soft -> Rabs (real_envelope iso soft p rs k) <= Rsum (length rs) (fun ion => Rabs (ro_pi p k ion)).
Proof.
  intros Hs. apply Rsum_abs_le. intros i Hi. rewrite Rabs_mult. rewrite <- (Rmult_1_r (Rabs (ro_pi p k i))) at 2. apply Rmult_le_compat_l; [apply Rabs_pos|].
  rewrite Rabs_pos_eq by (left; apply exp_pos). rewrite <- exp_0. destruct (soft_bounds soft (length_of (scaled iso p k i (nth i rs []))) Hs (length_of_nonneg _)) as (_ & B).
  destruct B as [B|B]; [left; apply exp_increasing; lra|rewrite <- B; right; f_equal; ring].
Qed.
Lemma envelope_decay soft p rs k m : 0 <= soft -> (forall ion, (ion < length rs)%nat -> m <= length_of (nth ion rs [])) ->
  Rabs (real_envelope true soft p rs k) <= Rsum (length rs) (fun ion => Rabs (ro_pi p k ion)) * exp (soft - Rabs (ro_kappa p k) * m).
Proof.
  intros Hs Hm. rewrite Rmult_comm, <- Rsum_scal. apply Rsum_abs_le. intros i Hi. rewrite Rabs_mult, Rmult_comm. apply Rmult_le_compat_r; [apply Rabs_pos|].
  rewrite Rabs_pos_eq by (left; apply exp_pos). unfold scaled. rewrite length_of_scale.
  assert (H1 : Rabs (ro_kappa p k) * m <= Rabs (ro_kappa p k) * length_of (nth i rs [])) by (apply Rmult_le_compat_l; [apply Rabs_pos|apply Hm; exact Hi]).
  destruct (soft_bounds soft (Rabs (ro_kappa p k) * length_of (nth i rs [])) Hs) as ((B & _) & _); [apply Rmult_le_pos; [apply Rabs_pos|apply length_of_nonneg]|].
  assert (H2 : - soft_length soft (Rabs (ro_kappa p k) * length_of (nth i rs [])) <= soft - Rabs (ro_kappa p k) * m) by lra.
  destruct H2 as [H2|H2]; [left; apply exp_increasing; exact H2|rewrite H2; right; reflexivity].
Qed.
