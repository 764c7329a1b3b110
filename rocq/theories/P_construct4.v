(** * Proofs: networks built on antiequivariant layers *)
From Coq Require Import Reals List Bool Arith Lia Lra Permutation ZArith.
From Verif Require Import XReal S_physics M_slog M_models M_antisym M_construct S_models S_antisym S_construct P_xsum P_slog P_split P_equiv P_equiv2 P_jastrow P_models P_inv P_parity P_flips P_sgn P_antisym P_antieq P_leibniz P_signsym P_construct P_construct2 P_construct3.
Import ListNotations.
Local Open Scope R_scope.

(** ** Lengths of the antiequivariant features *)
Lemma sequence_blocks {A B} (f : list A -> option (list B)) L vs : (forall l v, f l = Some v -> length v = length l) -> sequence (map f L) = Some vs ->
  map (@length B) vs = map (@length A) L.
Proof.
  intros H. revert vs. induction L as [|l L IH]; cbn [map sequence]; intros vs E; [injection E as <-; reflexivity|].
  destruct (f l) as [v|] eqn:Ef; [|discriminate]. destruct (sequence (map f L)) as [r|]; [|discriminate]. injection E as <-. cbn [map]. rewrite (H _ _ Ef), (IH r eq_refl). reflexivity.
Qed.
Lemma by_spin_lengths {A} sizes (g : nat -> nat -> A) : map (@length A) (by_spin sizes g) = sizes.
Proof.
  apply (list_eq_nth _ _ 0%nat); [rewrite map_length; apply by_spin_length|]. intros b Hb. rewrite map_length, by_spin_length in Hb.
  rewrite (map_nth (@length A) _ [] b : nth b (map (@length A) (by_spin sizes g)) 0%nat = _). rewrite by_spin_nth by exact Hb. rewrite map_length, seq_length. reflexivity.
Qed.
Definition layer_of (k : antieq_kind) (l : orbital_layer) (x : arr2) (r : option arr3) : option (list vec) :=
  match k with Cofactor => orbital_cofactor_layer l x r | PerParticle => per_particle_determinant_layer l x r end.
Lemma layer_lengths k l sizes x r vs : orbitals_ok sizes l -> length x = list_sum sizes -> rows_opt (list_sum sizes) r -> layer_of k l x r = Some vs ->
  map (@length xr) vs = sizes.
Proof.
  intros O L Lr. destruct k; cbn [layer_of].
  - unfold orbital_cofactor_layer. intros E. rewrite (sequence_blocks cofactor_antieq _ _ cofactor_length E), (orbitals_rows l sizes x r O L Lr). apply by_spin_lengths.
  - unfold per_particle_determinant_layer. intros E. rewrite (sequence_blocks (fun ms => sequence (map linalg_det ms)) _ _ (fun ms v => sequence_map_length linalg_det ms v) E).
    rewrite (doubly_rows l sizes x r O L Lr). rewrite mapi_compose. unfold double_matrices.
    rewrite <- (by_spin_lengths sizes (fun _ i => (nth i x [], option_map (fun r => nth i r []) r))) at 2. rewrite map_mapi. unfold mapi. apply zipw_ext. intros b a. apply map_length.
Qed.
Lemma layer_flips k l sizes s x r : orbitals_ok sizes l -> keeps_spins sizes s -> length x = list_sum sizes -> rows_opt (list_sum sizes) r ->
  layer_of k l (reorder s x) (reorder_opt s r) =
  option_map (fun vs => zipw (fun e v => map (sg e) v) (block_signs sizes s) (cut sizes (reorder s (concat vs)))) (layer_of k l x r).
Proof.
  intros O K L Lr. rewrite <- (spin_signs_list sizes s K). destruct k; [apply cofactor_layer_flips|apply per_particle_layer_flips]; assumption.
Qed.

(** ** Multiplying by equivariant features *)
Lemma zipw_firstn {A B C} (h : A -> B -> C) m a b : firstn m (zipw h a b) = zipw h (firstn m a) (firstn m b).
Proof. revert a b. unfold zipw. induction m as [|m IH]; intros [|x a] [|y b]; cbn; try reflexivity. f_equal; apply IH. Qed.
Lemma zipw_skipn {A B C} (h : A -> B -> C) m a b : skipn m (zipw h a b) = zipw h (skipn m a) (skipn m b).
Proof. revert a b. unfold zipw. induction m as [|m IH]; intros [|x a] [|y b]; cbn; try reflexivity; [destruct (skipn m a); reflexivity|apply IH]. Qed.
Lemma zipw_cut {A B C} (h : A -> B -> C) sizes a b : zipw (zipw h) (cut sizes a) (cut sizes b) = cut sizes (zipw h a b).
Proof.
  revert a b. induction sizes as [|m r IH]; intros a b; [reflexivity|]. cbn [cut]. rewrite zipw_firstn, zipw_skipn, <- IH. reflexivity.
Qed.
Lemma zipw_reorder {A B C} (h : A -> B -> C) s n a b : renumbering n s -> length a = n -> length b = n -> reorder s (zipw h a b) = zipw h (reorder s a) (reorder s b).
Proof.
  intros H La Lb. destruct a as [|a0 a'] eqn:Ea; [reflexivity|]. destruct b as [|b0 b'] eqn:Eb; [cbn in *; lia|]. rewrite <- Ea, <- Eb in *.
  rewrite (reorder_map_seq s n (zipw h a b) (h a0 b0) H) by (rewrite zipw_length; lia). rewrite (reorder_map_seq s n a a0 H La), (reorder_map_seq s n b b0 H Lb).
  rewrite zipw_maps. apply map_ext_in. intros i Hi. apply in_seq in Hi. apply (zipw_nth h a b (s i) a0 b0); pose proof (renumbering_lt n s i H); lia.
Qed.
(** The features after the layer, as one list of rows. *)
Definition feature_row (multiply : bool) (row : vec) (a : xr) : vec := if multiply then map (fun f => xmul f a) row else [a].
Lemma feature_row_sg mu row e a : unit e -> feature_row mu row (sg e a) = vscale (Fin e) (feature_row mu row a).
Proof.
  intros U. destruct mu; [|reflexivity]. cbn [feature_row]. unfold vscale. rewrite map_map. apply map_ext. intros f. apply sg_xmul_r. exact U.
Qed.
Definition antieq_out (a : antieq_net) (antieq : list vec) (bo : arr2) : option (list arr2) :=
  if an_multiply a then multiply_antieq_by_eq_features antieq bo (an_split a) else Some (map (map (fun v => [v])) antieq).
Lemma antieq_out_spec a sizes antieq bo : describes (an_split a) sizes -> map (@length xr) antieq = sizes -> length bo = list_sum sizes ->
  antieq_out a antieq bo = Some (cut sizes (zipw (feature_row (an_multiply a)) bo (concat antieq))).
Proof.
  intros D Ls L. unfold antieq_out. rewrite <- zipw_cut, <- Ls, cut_of_concat, Ls.
  unfold multiply_antieq_by_eq_features. rewrite (split_cut _ sizes bo D L). unfold feature_row. destruct (an_multiply a); [reflexivity|]. f_equal.
  assert (Q : Forall2 (fun (r : arr2) (v : vec) => length r = length v) (cut sizes bo) antieq).
  { assert (E : map (@length vec) (cut sizes bo) = map (@length xr) antieq) by (rewrite cut_sizes, Ls by exact L; reflexivity).
    revert E. generalize (cut sizes bo) as C. clear. intros C. revert antieq. induction C as [|c C IH]; intros [|v w] E; try discriminate; constructor; cbn in E; [congruence|]. apply IH. congruence. }
  clear -Q. induction Q as [|r v C w Lr _ IH]; [reflexivity|]. unfold zipw in *. cbn [combine map fst snd]. f_equal; [|exact IH]. clear IH.
  revert r Lr. induction v as [|x v IH]; intros [|y r] Lr; try discriminate; [reflexivity|]. cbn [combine map fst snd]. f_equal. apply IH. cbn in Lr. lia.
Qed.
Lemma concat_lengths {A} (L : list (list A)) : length (concat L) = list_sum (map (@length A) L).
Proof. induction L as [|a L IH]; [reflexivity|]. cbn [concat map]. rewrite app_length, IH. reflexivity. Qed.

Lemma concat_zipw_signs {A} (act : R -> A -> A) sgs (L : list (list A)) : length sgs = length L ->
  concat (zipw (fun e v => map (act e) v) sgs L) = concat (mapi (fun b v => map (act (nth b sgs 0)) v) L).
Proof.
  intros E. f_equal. apply (list_eq_nth _ _ []); [rewrite zipw_length, mapi_length; lia|]. intros b Hb. rewrite zipw_length in Hb.
  rewrite (zipw_nth _ _ _ b 0 []), (mapi_nth _ _ b []) by lia. reflexivity.
Qed.
Lemma signed_features a sizes sgs (v : list xr) bo : Forall unit sgs -> length sgs = length sizes -> length v = list_sum sizes -> length bo = list_sum sizes ->
  cut sizes (zipw (feature_row (an_multiply a)) bo (concat (zipw (fun e u => map (sg e) u) sgs (cut sizes v)))) =
  zipw (fun e => map (vscale (Fin e))) sgs (cut sizes (zipw (feature_row (an_multiply a)) bo v)).
Proof.
  intros U Ls Lv Lb. rewrite <- !zipw_cut.
  assert (E : cut sizes (concat (zipw (fun e u => map (sg e) u) sgs (cut sizes v))) = zipw (fun e u => map (sg e) u) sgs (cut sizes v)).
  { set (W := zipw _ sgs (cut sizes v)). replace sizes with (map (@length xr) W) at 1; [apply cut_of_concat|].
    unfold W. rewrite map_zipw. rewrite <- (cut_sizes sizes v Lv) at 2.
    assert (Q : length sgs = length (cut sizes v)) by (rewrite cut_length; exact Ls). revert Q. generalize (cut sizes v) as C. clear. intros C. revert sgs.
    induction C as [|c C IH]; intros [|e sgs] Q; try discriminate; [reflexivity|]. unfold zipw in *. cbn [combine map fst snd]. rewrite map_length. f_equal. apply IH. cbn in Q. lia. }
  rewrite E. assert (Q : length (cut sizes v) = length (cut sizes bo)) by (rewrite !cut_length; reflexivity).
  revert Q. generalize (cut sizes v) as C, (cut sizes bo) as Bo. clear -U. intros C Bo. revert C Bo. induction U as [|e sgs Ue _ IH]; intros [|c C] [|b Bo] Q; try discriminate; try reflexivity.
  unfold zipw in *. cbn [combine map fst snd]. f_equal; [|apply IH; cbn in Q; lia]. rewrite map_map.
  clear -Ue. revert b. induction c as [|x c IH]; intros [|y b]; try reflexivity. cbn [map combine fst snd]. f_equal; [apply feature_row_sg; exact Ue|apply IH].
Qed.

(** ** The two kinds of sign-covariant readouts *)
Lemma scaled_concat sizes s (g : nat -> vec -> vec) (F : arr2) : keeps_spins sizes s -> length F = list_sum sizes ->
  concat (mapi (fun b => map (g b)) (cut sizes (reorder s F))) = reorder s (concat (mapi (fun b => map (g b)) (cut sizes F))).
Proof.
  intros K L. pose proof K as (H & Hk).
  assert (G : forall F : arr2, length F = list_sum sizes -> concat (mapi (fun b => map (g b)) (cut sizes F)) = map (fun i => g (spin_of sizes i) (nth i F [])) (seq 0 (list_sum sizes))).
  { intros F' L'. rewrite <- (concat_by_spin sizes (fun b i => g b (nth i F' []))). f_equal.
    apply (list_eq_nth _ _ []); [rewrite mapi_length, by_spin_length; apply cut_length|]. intros b Hb. rewrite mapi_length, cut_length in Hb.
    rewrite (mapi_nth _ _ b []) by (rewrite cut_length; exact Hb). rewrite by_spin_nth, (cut_piece sizes F' b []) by assumption. rewrite map_map. reflexivity. }
  rewrite (G (reorder s F)) by (rewrite reorder_length; exact L). rewrite (G F L), map_seq_reorder by exact H. apply map_ext_in. intros i Hi. apply in_seq in Hi.
  rewrite Hk by lia. rewrite (nth_reorder s (list_sum sizes) F [] i H L) by lia. reflexivity.
Qed.
Lemma scaled_shape sizes d (g : nat -> vec -> vec) (F : arr2) : (forall b v, length (g b v) = length v) -> shape2 (list_sum sizes) d F ->
  shape2 (list_sum sizes) d (concat (mapi (fun b => map (g b)) (cut sizes F))).
Proof.
  intros Hg Sf. apply concat_shape. pose proof (cut_shapes d sizes F Sf) as Q. revert Q. generalize (cut sizes F) as C. clear -Hg. intros C Q.
  unfold mapi. generalize 0%nat as o. induction Q as [|n m ns C (Lm & Fm) _ IH]; intros o; [constructor|]. unfold zipw in *. cbn [length seq combine map fst snd]. constructor; [|apply IH].
  split; [rewrite map_length; exact Lm|]. apply Forall_map. eapply Forall_impl; [|exact Fm]. intros v Hv. rewrite Hg. exact Hv.
Qed.
Lemma vsum_msum_reorder n dout s (l : list arr2) : renumbering n s -> Forall (fun m => length m = n) l ->
  vsum dout (msum n dout (map (reorder s) l)) = vsum dout (msum n dout l).
Proof.
  intros H F. apply vsum_perm. assert (E : msum n dout (map (reorder s) l) = reorder s (msum n dout l)).
  { unfold msum. rewrite map_seq_reorder by exact H. apply map_ext_in. intros i Hi. apply in_seq in Hi. f_equal. rewrite map_map. apply map_ext_in. intros m Hm.
    rewrite Forall_forall in F. apply (nth_reorder s n); [exact H|apply F; exact Hm|lia]. }
  rewrite E. apply reorder_perm. unfold msum. rewrite map_length, seq_length. exact H.
Qed.
Lemma signs_concat_shape sizes d sgs (F : arr2) : length sgs = length sizes -> shape2 (list_sum sizes) d F ->
  shape2 (list_sum sizes) d (concat (zipw (fun e => map (vscale (Fin e))) sgs (cut sizes F))).
Proof.
  intros Ls Sf. rewrite (concat_zipw_signs (fun e => vscale (Fin e))) by (rewrite cut_length; exact Ls).
  apply (scaled_shape sizes d (fun b => vscale (Fin (nth b sgs 0)))); [|exact Sf]. intros b v. apply map_length.
Qed.
Lemma odd_backflow_reorder bs sizes d sgs s F : built_for sizes bs -> keeps_spins sizes s -> (0 < list_sum sizes)%nat -> shape2 (list_sum sizes) d F ->
  Forall unit sgs -> length sgs = length sizes ->
  apply_sign_covariance (OddBackflow bs) (zipw (fun e => map (vscale (Fin e))) sgs (cut sizes (reorder s F))) =
  option_map (vscale (Fin (lprod sgs))) (apply_sign_covariance (OddBackflow bs) (cut sizes F)).
Proof.
  intros B K N Sf U Ls. pose proof K as (H & _). pose proof Sf as (Lf & Ff).
  assert (Sf' : shape2 (list_sum sizes) d (reorder s F)).
  { split; [rewrite reorder_length; exact Lf|]. apply Forall_reorder; [rewrite Lf; exact H|exact Ff]. }
  pose proof (signs_concat_shape sizes d sgs _ Ls Sf') as Sc. cbn [apply_sign_covariance]. cbv zeta.
  rewrite (proj1 Sc), (shape_width _ d _ N Sc). rewrite cut_concat by exact Lf. rewrite Lf, (shape_width _ d F N Sf).
  unfold check. destruct (backflow_ok bs (list_sum sizes)); [|reflexivity]. cbn [option_map]. f_equal.
  rewrite covariant_mat by (exact U || (rewrite cut_length; exact Ls)). rewrite vsum_vscale by (apply lprod_unit; exact U). f_equal.
  unfold make_array_list_fn_sign_covariant2. rewrite !apply_spec.
  set (fn := fun y : list arr2 => backflow bs (concat y) None). set (ao := fun (m : arr2) (t : R) => map (vscale (Fin t)) m). set (fl := fun t : R => map (vscale (Fin t))).
  assert (E : results fl fn ao (cut sizes (reorder s F)) = map (reorder s) (results fl fn ao (cut sizes F)) /\ Forall (fun m : arr2 => length m = list_sum sizes) (results fl fn ao (cut sizes F))).
  { unfold results. rewrite !cut_length, map_map. split.
    - apply map_ext. intros k. unfold ao. rewrite reorder_map. f_equal. unfold fn, symmetry, fl.
      change (fun (i : nat) (a : arr2) => map (vscale (Fin (bit_sign k i))) a) with (fun b : nat => map (vscale (Fin (bit_sign k b)))).
      rewrite (scaled_concat sizes s (fun b => vscale (Fin (bit_sign k b))) F K Lf).
      apply (backflow_equivariant bs sizes s _ None d O B K N); [|exact I]. apply (scaled_shape sizes d (fun b => vscale (Fin (bit_sign k b)))); [|exact Sf]. intros b v. apply map_length.
    - apply Forall_map, Forall_forall. intros k _. unfold ao. rewrite map_length. unfold fn, symmetry, fl.
      destruct (backflow_shape bs sizes (concat (mapi (fun i a => map (vscale (Fin (bit_sign k i))) a) (cut sizes F))) None d O B) as (d' & (Lb & _)); [|exact I|exact Lb].
      apply (scaled_shape sizes d (fun b => vscale (Fin (bit_sign k b)))); [|exact Sf]. intros b v. apply map_length. }
  destruct E as (-> & Fl). apply vsum_msum_reorder; assumption.
Qed.
Lemma products_reorder sizes sgs s F : keeps_spins sizes s -> length F = list_sum sizes -> Forall unit sgs -> length sgs = length sizes ->
  apply_sign_covariance (Products None) (zipw (fun e => map (vscale (Fin e))) sgs (cut sizes (reorder s F))) =
  option_map (vscale (Fin (lprod sgs))) (apply_sign_covariance (Products None) (cut sizes F)).
Proof.
  intros K L U Ls. cbn [apply_sign_covariance].
  assert (P : forall b, (b < length sizes)%nat -> Permutation (nth b (cut sizes (reorder s F)) []) (nth b (cut sizes F) [])) by (intros b Hb; apply cut_reorder_piece; assumption).
  assert (L1 := cut_length sizes F). assert (L2 := cut_length sizes (reorder s F)).
  destruct sgs as [|e [|f [|? ?]]]; cbn [length] in Ls.
  - destruct (cut sizes F); [|cbn in L1; lia]. destruct (cut sizes (reorder s F)); [reflexivity|cbn in L2; lia].
  - destruct (cut sizes F) as [|? [|]]; cbn in L1; try lia. destruct (cut sizes (reorder s F)) as [|? [|]]; cbn in L2; try lia. reflexivity.
  - destruct (cut sizes F) as [|up [|down [|]]]; cbn in L1; try lia. destruct (cut sizes (reorder s F)) as [|up' [|down' [|]]]; cbn in L2; try lia.
    pose proof (P 0%nat ltac:(lia)) as P0. pose proof (P 1%nat ltac:(lia)) as P1. cbn [nth] in P0, P1. unfold zipw. cbn [combine map fst snd].
    inversion U as [|? ? Ue U']; subst. inversion U' as [|? ? Uf _]; subst. rewrite (products_signed 1 None e f up' down' Ue Uf).
    replace (lprod [e; f]) with (e * f) by (cbn; ring). f_equal. unfold products_sign_covariance. cbv zeta. cbn [Nat.eqb]. f_equal. f_equal.
    rewrite !map_map. transitivity (xsum (map (fun u => xsum (map (dot u) down')) up)); [apply xsum_perm, Permutation_map; exact P0|].
    f_equal. apply map_ext. intros u. apply xsum_perm, Permutation_map. exact P1.
  - destruct (cut sizes F) as [|? [|? [|]]]; cbn in L1; try lia. destruct (cut sizes (reorder s F)) as [|? [|? [|]]]; cbn in L2; try lia. reflexivity.
Qed.

Lemma antieq_antisymmetric a sizes d s x : describes (an_split a) sizes -> built_for sizes (an_backflow a) -> ions_fit d (an_streams a) -> readout_built_for sizes (an_cov a) ->
  keeps_spins sizes s -> (0 < list_sum sizes)%nat -> shape2 (list_sum sizes) d x ->
  antieq_net_call a (reorder s x) = option_map (signed (sign_of (list_sum sizes) s)) (antieq_net_call a x).
Proof.
  intros D B Fi Rc K N Sx. pose proof Sx as (L & _). unfold antieq_net_call.
  rewrite (input_streams_equivariant (an_streams a) s x) by (rewrite L; apply K).
  destruct (compute_input_streams (an_streams a) x) as (((i1, i2), r1), r2) eqn:E.
  destruct (streams_shape _ _ _ _ Sx Fi _ _ _ _ E) as (S1 & (d2 & S2) & S3 & _). rewrite rows_of_reorder.
  destruct (rows_of_input i1) as [x1|]; [|reflexivity]. destruct (S1 x1 eq_refl) as (d1 & Sx1). cbn [option_map bind_opt]. unfold check.
  rewrite reorder_length. destruct (backflow_ok (an_backflow a) (length x)); [|reflexivity]. cbv zeta.
  rewrite (backflow_equivariant (an_backflow a) sizes s x1 i2 d1 d2 B K N Sx1 S2).
  destruct (backflow_shape (an_backflow a) sizes x1 i2 d1 d2 B Sx1 S2) as (d' & Sb). set (bo := backflow (an_backflow a) x1 i2) in *. pose proof Sb as (Lb & Fb).
  unfold antieq_layer. rewrite reorder_length, Lb.
  destruct (particle_split_eq_dec (an_split a)) as [Es|Es]; [rewrite Es; reflexivity|].
  rewrite (nelec_describes _ sizes D Es). cbn [bind_opt]. rewrite to_nats_of. cbn [bind_opt]. unfold check. rewrite (describes_splittable _ sizes D).
  set (ly := Build_orbital_layer _ _ _ _). assert (Ok : orbitals_ok sizes ly) by (split; [exact D|cbn; apply mapi_length]).
  change (match an_kind a with Cofactor => orbital_cofactor_layer ly (reorder s bo) (reorder_opt s r1) | PerParticle => per_particle_determinant_layer ly (reorder s bo) (reorder_opt s r1) end)
    with (layer_of (an_kind a) ly (reorder s bo) (reorder_opt s r1)).
  change (match an_kind a with Cofactor => orbital_cofactor_layer ly bo r1 | PerParticle => per_particle_determinant_layer ly bo r1 end)
    with (layer_of (an_kind a) ly bo r1).
  assert (Lr : rows_opt (list_sum sizes) r1) by exact S3.
  rewrite (layer_flips _ ly sizes s bo r1 Ok K Lb Lr). destruct (layer_of (an_kind a) ly bo r1) as [vs|] eqn:Ev; [|reflexivity]. cbn [option_map bind_opt].
  assert (Lv := layer_lengths _ _ _ _ _ _ Ok Lb Lr Ev). set (sgs := block_signs sizes s).
  assert (U : Forall unit sgs) by (apply (bflips_unit _ _ _ (cut_flips sizes s x K L))).
  assert (Lg : length sgs = length sizes) by (unfold sgs, block_signs; rewrite map_length; apply seq_length).
  assert (Lc : length (concat vs) = list_sum sizes) by (rewrite concat_lengths, Lv; reflexivity).
  change (if an_multiply a then multiply_antieq_by_eq_features vs bo (an_split a) else Some (map (map (fun v => [v])) vs)) with (antieq_out a vs bo).
  set (vs' := zipw (fun e v => map (sg e) v) sgs (cut sizes (reorder s (concat vs)))).
  change (if an_multiply a then multiply_antieq_by_eq_features vs' (reorder s bo) (an_split a) else Some (map (map (fun v => [v])) vs')) with (antieq_out a vs' (reorder s bo)).
  assert (Lv' : map (@length xr) vs' = sizes).
  { apply (layer_lengths (an_kind a) ly sizes (reorder s bo) (reorder_opt s r1)); [exact Ok|rewrite reorder_length; exact Lb| |].
    - destruct r1; [cbn; rewrite reorder_length; exact Lr|exact I].
    - rewrite (layer_flips _ ly sizes s bo r1 Ok K Lb Lr), Ev. reflexivity. }
  rewrite (antieq_out_spec a sizes vs bo D Lv Lb), (antieq_out_spec a sizes vs' (reorder s bo) D Lv') by (rewrite reorder_length; exact Lb). cbn [bind_opt].
  unfold vs'. rewrite signed_features by (assumption || rewrite ?reorder_length; assumption).
  rewrite <- (zipw_reorder _ s (list_sum sizes) bo (concat vs) (proj1 K) Lb Lc).
  set (F := zipw (feature_row (an_multiply a)) bo (concat vs)).
  assert (Sf : exists w, shape2 (list_sum sizes) w F).
  { exists (if an_multiply a then d' else 1%nat). unfold F. split; [rewrite zipw_length; lia|]. clear -Fb Lb Lc. revert Lb Lc. generalize (list_sum sizes) as n. intros n _ _. revert Fb. generalize (concat vs) as c.
    intros c Fb. revert c. induction Fb as [|r b Hr _ IH]; intros [|v c]; try constructor; [|apply IH]. cbn. unfold feature_row. destruct (an_multiply a); [rewrite map_length; exact Hr|reflexivity]. }
  destruct Sf as (w & Sf). pose proof Sf as (Lf & _).
  assert (R : apply_sign_covariance (an_cov a) (zipw (fun e => map (vscale (Fin e))) sgs (cut sizes (reorder s F))) =
              option_map (vscale (Fin (lprod sgs))) (apply_sign_covariance (an_cov a) (cut sizes F))).
  { destruct (an_cov a) as [[wt|]|bs]; [contradiction Rc| |].
    - apply products_reorder; assumption.
    - apply (odd_backflow_reorder bs sizes w); assumption. }
  rewrite R. destruct (apply_sign_covariance (an_cov a) (cut sizes F)) as [v|]; [|reflexivity]. cbn [option_map bind_opt]. f_equal.
  unfold sgs in *. rewrite (block_signs_prod sizes s K) in *. assert (Us : unit (sign_of (list_sum sizes) s)) by (rewrite <- (block_signs_prod sizes s K); apply lprod_unit; exact U).
  rewrite <- sg_slog by exact Us. f_equal. unfold vscale. change (xmul (Fin (sign_of (list_sum sizes) s))) with (sg (sign_of (list_sum sizes) s)). apply sg_sum. exact Us.
Qed.
(** ** Coincidence *)
Lemma antieq_from_value a x p : antieq_net_call a x = Some p -> exists v, p = array_to_slog v.
Proof.
  unfold antieq_net_call. destruct (compute_input_streams (an_streams a) x) as (((i1, i2), r1), r2). destruct (rows_of_input i1) as [x1|]; [|discriminate].
  cbn [bind_opt]. unfold check. destruct (backflow_ok _ _); [|discriminate]. cbv zeta. destruct (antieq_layer a _ r1) as [vs|]; [|discriminate]. cbn [bind_opt].
  destruct (if an_multiply a then _ else _) as [o|]; [|discriminate]. cbn [bind_opt]. destruct (apply_sign_covariance _ o) as [v|]; [|discriminate].
  cbn [bind_opt]. intros E. apply some_inj in E. exists (xsum v). symmetry. exact E.
Qed.
Lemma antieq_coincide a sizes d x i j p : describes (an_split a) sizes -> built_for sizes (an_backflow a) -> ions_fit d (an_streams a) -> readout_built_for sizes (an_cov a) ->
  shape2 (list_sum sizes) d x -> coincide sizes x i j -> antieq_net_call a x = Some p -> p = (Fin 0, MInf) \/ p = (NaN, NaN).
Proof.
  intros D B Fi Rc Sx (Hi & Hj & Ne & Sp & E) Ep. pose proof Sx as (L & _). assert (K := exchange_keeps sizes i j Hi Hj Sp).
  pose proof (antieq_antisymmetric a sizes d (exchange i j) x D B Fi Rc K ltac:(lia) Sx) as Q.
  rewrite (reorder_exchange_same x i j []) in Q by (rewrite ?L; assumption). rewrite exchange_sign in Q by assumption. rewrite Ep in Q. cbn [option_map] in Q. apply some_inj in Q.
  destruct (antieq_from_value a x p Ep) as (v & ->). destruct (slog_opposite v Q) as [(_ & H)|(_ & H)]; [left|right]; exact H.
Qed.
