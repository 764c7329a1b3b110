(** * Proofs: FermiNets with hidden particles *)
From Coq Require Import Reals List Bool Arith Lia Lra Permutation ZArith.
From Verif Require Import XReal S_physics M_slog M_models M_antisym M_construct S_models S_antisym S_construct P_xsum P_slog P_split P_equiv P_equiv2 P_jastrow P_models P_inv P_parity P_flips P_sgn P_antisym P_antieq P_leibniz P_signsym P_construct P_construct2.
Import ListNotations.
Local Open Scope R_scope.

Lemma zipw_app_flips {A} sgs (L L' H : list (list A)) : bflips sgs L L' -> length H = length L ->
  bflips sgs (zipw (fun p h => p ++ h) L H) (zipw (fun p h => p ++ h) L' H).
Proof.
  intros B. revert H. induction B as [|s sgs l ls l' ls' F B IH]; intros [|h H] Ln; try discriminate; [constructor|].
  unfold zipw in *. cbn [combine map fst snd]. constructor; [|apply IH; cbn in Ln; lia].
  replace s with (s * 1) by ring. apply flips_app; [exact F|apply flips_refl].
Qed.
Lemma invariance_params_snd dp shapes : map snd (invariance_params dp shapes) = mapi (fun i sh => set_features (fst sh * snd sh) (dp i)) shapes.
Proof. unfold invariance_params. unfold mapi. rewrite map_zipw. apply zipw_ext. reflexivity. Qed.
Lemma mapi_fst {A B} (f : nat -> A -> B) l : map fst (mapi (fun i a => (a, f i a)) l) = l.
Proof.
  unfold mapi. rewrite map_zipw. enough (G : forall o, zipw (fun (a : nat) (b : A) => fst (b, f a b)) (seq o (length l)) l = l) by apply G.
  induction l as [|a l IH]; intros o; [reflexivity|]. unfold zipw in *. cbn [length seq combine map fst snd]. rewrite IH. reflexivity.
Qed.
Lemma invariance_params_fst dp shapes : map fst (invariance_params dp shapes) = shapes.
Proof. apply (mapi_fst (fun i sh => set_features (fst sh * snd sh) (dp i))). Qed.
Lemma reshape2_shape n d v : shape2 n d (reshape2 n d v).
Proof.
  unfold reshape2. split; [rewrite map_length; apply seq_length|]. apply Forall_map, Forall_forall. intros i _. rewrite map_length. apply seq_length.
Qed.
Lemma zipw_shapes (vs : list vec) (ps : list ((nat * nat) * mean_dense)) : length vs = length ps ->
  Forall2 (fun sh m => shape2 (fst sh) (snd sh) m) (map fst ps) (zipw (fun v p => reshape2 (fst (fst p)) (snd (fst p)) v) vs ps).
Proof.
  revert ps. induction vs as [|v vs IH]; intros [|p ps] L; try discriminate; [constructor|]. unfold zipw in *. cbn [combine map fst snd].
  constructor; [apply reshape2_shape|apply IH; cbn in L; lia].
Qed.
Lemma tensor_shapes sp bf dp shapes sizes x y : describes sp sizes -> length (match bf with Some b => backflow b x y | None => x end) = list_sum sizes ->
  length shapes = length sizes -> Forall2 (fun sh m => shape2 (fst sh) (snd sh) m) shapes (invariant_tensor sp bf (invariance_params dp shapes) x y).
Proof.
  intros D L Ls. unfold invariant_tensor. cbv zeta. rewrite <- (invariance_params_fst dp shapes) at 1. apply zipw_shapes.
  unfold split_mean_dense. rewrite zipw_length, map_length, (split_mean_spin sp sizes) by assumption. unfold spin_means. rewrite map_length, cut_length.
  unfold invariance_params. rewrite mapi_length. lia.
Qed.

(** ** EmbeddedParticleFermiNet *)
Lemma shape_width n d x : (0 < n)%nat -> shape2 n d x -> width x = d.
Proof. intros N (L & F). destruct x; [cbn in L; lia|]. inversion F; subst. reflexivity. Qed.
Lemma zipw_add_length (a b : list nat) : length a = length b -> length (zipw Nat.add a b) = length a.
Proof. intros H. rewrite zipw_length. lia. Qed.
Lemma zipw_add_sum (a b : list nat) : length a = length b -> list_sum (zipw Nat.add a b) = (list_sum a + list_sum b)%nat.
Proof.
  revert b. induction a as [|x a IH]; intros [|y b] L; try discriminate; [reflexivity|]. unfold zipw in *. cbn [combine map fst snd]. rewrite !list_sum_cons, IH by (cbn in L; lia). lia.
Qed.
Lemma app_shapes d sizes hs (L H : list arr2) : Forall2 (fun n m => shape2 n d m) sizes L -> Forall2 (fun n m => shape2 n d m) hs H -> length sizes = length hs ->
  Forall2 (fun n m => shape2 n d m) (zipw Nat.add sizes hs) (zipw (fun p h => p ++ h) L H).
Proof.
  intros A. revert hs H. induction A as [|n m sizes L (Lm & Fm) _ IH]; intros hs H B Ln; destruct B as [|k h hs H (Lh & Fh) B]; try discriminate; [constructor|].
  unfold zipw in *. cbn [combine map fst snd]. constructor; [|apply IH; [exact B|cbn in Ln; lia]]. split; [rewrite app_length; lia|apply Forall_app; split; assumption].
Qed.
Lemma cut_shapes d sizes x : shape2 (list_sum sizes) d x -> Forall2 (fun n m => shape2 n d m) sizes (cut sizes x).
Proof.
  revert x. induction sizes as [|n sizes IH]; intros x (L & F); [constructor|]. rewrite list_sum_cons in L. cbn [cut].
  rewrite <- (firstn_skipn n x) in F. apply Forall_app in F. destruct F as (F1 & F2). constructor.
  - split; [rewrite firstn_length; lia|exact F1].
  - apply IH. split; [rewrite skipn_length; lia|exact F2].
Qed.
Lemma shapes_lengths d ns L : Forall2 (fun n (m : arr2) => shape2 n d m) ns L -> map (@length vec) L = ns.
Proof. induction 1 as [|n m ns L (Lm & _) _ IH]; [reflexivity|]. cbn [map]. rewrite Lm, IH. reflexivity. Qed.
Lemma map_pair_shapes hs d (H : list arr2) : Forall2 (fun sh m => shape2 (fst sh) (snd sh) m) (map (fun n : nat => (n, d)) hs) H -> Forall2 (fun n m => shape2 n d m) hs H.
Proof. revert H. induction hs as [|h hs IH]; intros H Q; inversion Q; subst; constructor; [assumption|]. apply IH. assumption. Qed.
Lemma spin_split_describes l : l <> [] -> describes (At (get_spin_split l)) l.
Proof. intros H. split; [exact H|]. right. unfold get_spin_split. rewrite cumsum_ends. reflexivity. Qed.

Lemma particle_split_eq_dec (sp : particle_split) : {sp = At []} + {sp <> At []}.
Proof. destruct sp as [k|[|i r]]; [right|left|right]; congruence. Qed.
Definition embedded_sizes (sizes : list nat) (e : embedded) : list nat := zipw Nat.add sizes (em_nhidden e).
Lemma embed_spec e sizes d s x : describes (fn_split (em_net e)) sizes -> built_for sizes (em_backflow e) -> ions_fit d (em_streams e) ->
  keeps_spins sizes s -> (0 < list_sum sizes)%nat -> shape2 (list_sum sizes) d x ->
  match embed e x, embed e (reorder s x) with
  | Some p, Some q => snd p = snd q /\ describes (snd p) (embedded_sizes sizes e) /\ shape2 (list_sum (embedded_sizes sizes e)) d (fst p) /\
      (0 < list_sum (embedded_sizes sizes e))%nat /\
      exists s', keeps_spins (embedded_sizes sizes e) s' /\ fst q = reorder s' (fst p) /\ lprod (block_signs (embedded_sizes sizes e) s') = sign_of (list_sum sizes) s
  | None, None => True
  | _, _ => False
  end.
Proof.
  intros D B Fi K N Sx. pose proof Sx as (L & _). unfold embed. cbv zeta. rewrite reorder_length.
  rewrite (input_streams_equivariant (em_streams e) s x) by (rewrite L; apply K).
  rewrite (width_reorder s (list_sum sizes) x d (proj1 K) N Sx).
  rewrite L. destruct (particle_split_eq_dec (fn_split (em_net e))) as [Es|Es].
  { rewrite Es. exact I. }
  rewrite (nelec_describes _ sizes D Es). cbn [bind_opt]. rewrite to_nats_of. cbn [bind_opt]. unfold check.
  destruct (Nat.eqb_spec (length (em_nhidden e)) (length sizes)) as [Lh|]; [|exact I].
  rewrite (split_cut _ sizes x D L), (split_cut _ sizes (reorder s x) D) by (rewrite reorder_length; exact L). cbn [bind_opt].
  destruct (compute_input_streams (em_streams e) x) as (((i1, i2), r1), r2) eqn:E. rewrite rows_of_reorder.
  destruct (streams_shape _ _ _ _ Sx Fi _ _ _ _ E) as (S1 & (d2 & S2) & S3 & _).
  destruct (rows_of_input i1) as [x1|]; [|exact I]. destruct (S1 x1 eq_refl) as (d1 & Sx1). cbn [option_map bind_opt].
  destruct (backflow_ok (em_backflow e) (list_sum sizes)); [|exact I].
  rewrite (invariant_tensor_invariant _ (Some (em_backflow e)) _ sizes s x1 i2 d1 d2 D B K N Sx1 S2).
  destruct (backflow_shape (em_backflow e) sizes x1 i2 d1 d2 B Sx1 S2) as (d' & (Lb & _)).
  set (H := invariant_tensor _ _ _ _ _). assert (Sh : Forall2 (fun n m => shape2 n d m) (em_nhidden e) H).
  { apply map_pair_shapes. unfold H. rewrite (shape_width _ d x N Sx). apply (tensor_shapes _ _ _ _ sizes); [exact D|exact Lb|rewrite map_length; exact Lh]. }
  cbn [fst snd]. assert (LH : length H = length sizes) by (rewrite <- (Forall2_len _ _ _ Sh); exact Lh).
  assert (Sa := app_shapes d sizes (em_nhidden e) (cut sizes x) H (cut_shapes d sizes x Sx) Sh (eq_sym Lh)).
  split; [reflexivity|]. split; [|split; [apply concat_shape; exact Sa|split]].
  - apply spin_split_describes. intros Q. apply (f_equal (@length nat)) in Q. unfold embedded_sizes in Q. rewrite zipw_add_length in Q by (symmetry; exact Lh). destruct D as (NE & _). destruct sizes; [congruence|discriminate].
  - unfold embedded_sizes. rewrite zipw_add_sum by (symmetry; exact Lh). lia.
  - assert (Bf := zipw_app_flips (block_signs sizes s) (cut sizes x) (cut sizes (reorder s x)) H (cut_flips sizes s x K L) ltac:(rewrite cut_length; exact LH)).
    destruct (flips_blocks _ _ _ Bf) as (s' & Ks & Ec & Es'). rewrite (shapes_lengths d _ _ Sa) in Ks. exists s'. split; [exact Ks|]. split; [exact Ec|].
    rewrite (block_signs_prod (embedded_sizes sizes e) s' Ks). rewrite <- (block_signs_prod sizes s K), <- Es'. f_equal.
    assert (Sc := concat_shape d _ _ Sa). destruct Sc as (Lc & _). symmetry. exact Lc.
Qed.
Lemma embedded_antisymmetric e sizes d s x : describes (fn_split (em_net e)) sizes -> built_for sizes (em_backflow e) -> ions_fit d (em_streams e) ->
  built_for (embedded_sizes sizes e) (fn_backflow (em_net e)) -> ions_fit d (fn_streams (em_net e)) ->
  keeps_spins sizes s -> (0 < list_sum sizes)%nat -> shape2 (list_sum sizes) d x ->
  embedded_call e (reorder s x) = option_map (signed (sign_of (list_sum sizes) s)) (embedded_call e x).
Proof.
  intros D B Fi B' Fi' K N Sx. unfold embedded_call. pose proof (embed_spec e sizes d s x D B Fi K N Sx) as Q.
  destruct (embed e x) as [p|], (embed e (reorder s x)) as [q|]; try contradiction; [|reflexivity]. cbn [bind_opt].
  destruct Q as (<- & Dp & Sp & Np & s' & K' & -> & <-). apply psi_orel. apply (matrices_orel (em_net e) (snd p) (embedded_sizes sizes e) d); assumption.
Qed.
Lemma embedded_coincide e sizes d x i j p : describes (fn_split (em_net e)) sizes -> built_for sizes (em_backflow e) -> ions_fit d (em_streams e) ->
  built_for (embedded_sizes sizes e) (fn_backflow (em_net e)) -> ions_fit d (fn_streams (em_net e)) ->
  shape2 (list_sum sizes) d x -> coincide sizes x i j -> embedded_call e x = Some p ->
  (p = (NaN, NaN) \/ (fn_det_fn (em_net e) <> None /\ p = (Fin 0, MInf))).
Proof.
  intros D B Fi B' Fi' Sx (Hi & Hj & Ne & Sp & E). pose proof Sx as (L & _). assert (K := exchange_keeps sizes i j Hi Hj Sp).
  assert (N : (0 < list_sum sizes)%nat) by lia. pose proof (embed_spec e sizes d (exchange i j) x D B Fi K N Sx) as Q.
  rewrite (reorder_exchange_same x i j []) in Q by (rewrite ?L; assumption). unfold embedded_call.
  destruct (embed e x) as [q|]; [|discriminate]. cbn [bind_opt]. destruct Q as (_ & Dp & Sh & Np & s' & K' & Er & Es).
  rewrite exchange_sign in Es by assumption. pose proof (matrices_orel (em_net e) (snd q) (embedded_sizes sizes e) d s' (fst q) Dp B' Fi' K' Np Sh) as O.
  rewrite <- Er in O. destruct (ferminet_orbital_matrices (em_net e) (fst q) (snd q)) as [Om|]; [|discriminate]. cbn [bind_opt orel] in *. intros Ep.
  destruct (fn_det_fn (em_net e)) as [fn|] eqn:Ed.
  - destruct (psi_zero_or_nan _ fn _ _ _ O Es Ed Ep) as (v & _ & [(_ & H)|(_ & H)]); [right|left; exact H]. split; [discriminate|exact H].
  - left. apply (psi_nan _ _ _ _ O Es Ed Ep).
Qed.

(** ** ExtendedOrbitalMatrixFermiNet *)
Lemma append_inv nd sgs Ol Ol' Iv : oflips nd sgs Ol Ol' -> Forall (fun o : list arr2 => length o = nd) Iv -> length Iv = length sgs ->
  oflips nd sgs (zipw (zipw (fun eq inv => eq ++ inv)) Ol Iv) (zipw (zipw (fun eq inv => eq ++ inv)) Ol' Iv).
Proof.
  intros H. revert Iv. induction H as [|s sgs o os o' os' U L L' F _ IH]; intros [|v Iv] Fv Lv; try discriminate; [constructor|].
  inversion Fv as [|? ? F1 F2]; subst. unfold zipw in *. cbn [combine map fst snd]. constructor; [exact U| | | |apply IH; [exact F2|cbn in Lv; lia]].
  1,2: rewrite map_length, combine_length; lia.
  intros k Hk. change (map (fun p => fst p ++ snd p) (combine o v)) with (zipw (fun a b : arr2 => a ++ b) o v).
  change (map (fun p => fst p ++ snd p) (combine o' v)) with (zipw (fun a b : arr2 => a ++ b) o' v).
  rewrite !(zipw_nth (fun a b : arr2 => a ++ b) _ _ k [] []) by lia. replace s with (s * 1) by ring. apply flips_app; [apply F; exact Hk|apply flips_refl].
Qed.
Lemma extended_invariance_length x norbs a b c r : extended_invariance x norbs a b c = Some r -> Forall (fun o : list arr2 => length o = fn_ndet (ex_net x)) r.
Proof.
  unfold extended_invariance. cbv zeta. unfold check. destruct (match ex_backflow x with Some bs => backflow_ok bs (length a) | None => true end); [|discriminate].
  apply sequence_forall. intros q o. unfold reshape_raw_orbitals. cbv zeta. destruct (Nat.eqb (fn_ndet (ex_net x)) 0); [discriminate|].
  destruct (Nat.eqb (width q mod fn_ndet (ex_net x)) 0); [|discriminate]. intros E. injection E as <-. rewrite map_length. apply seq_length.
Qed.
Definition extended_backflow_ok (sizes : list nat) (x : extended) : Prop := match ex_backflow x with Some bs => built_for sizes bs | None => True end.
Lemma extended_orel e sizes d s x : fits sizes d (ex_net e) -> extended_backflow_ok sizes e ->
  keeps_spins sizes s -> (0 < list_sum sizes)%nat -> shape2 (list_sum sizes) d x ->
  orel (fn_ndet (ex_net e)) (block_signs sizes s) (extended_orbital_matrices e x) (extended_orbital_matrices e (reorder s x)).
Proof.
  intros (D & B & Fi) Be K N Sx. pose proof Sx as (L & _). unfold extended_orbital_matrices. cbv zeta.
  rewrite (input_streams_equivariant (fn_streams (ex_net e)) s x) by (rewrite L; apply K).
  destruct (compute_input_streams (fn_streams (ex_net e)) x) as (((i1, i2), r1), r2) eqn:E.
  destruct (streams_shape _ _ _ _ Sx Fi _ _ _ _ E) as (S1 & (d2 & S2) & S3 & _). rewrite rows_of_reorder.
  destruct (rows_of_input i1) as [x1|]; [|exact I]. destruct (S1 x1 eq_refl) as (d1 & Sx1). cbn [option_map bind_opt]. unfold check at 1 2.
  rewrite reorder_length. destruct (backflow_ok (fn_backflow (ex_net e)) (length x)); [|exact I]. cbn [andb].
  destruct (Nat.eqb_spec (length (ex_nhidden e)) (get_nsplits (fn_split (ex_net e)))) as [Lh|]; [|exact I].
  rewrite (nsplits_of _ sizes D) in Lh.
  destruct (extended_norbitals e (length x)) as [norbs|]; [|exact I]. cbn [bind_opt].
  rewrite (backflow_equivariant (fn_backflow (ex_net e)) sizes s x1 i2 d1 d2 B K N Sx1 S2).
  destruct (backflow_shape (fn_backflow (ex_net e)) sizes x1 i2 d1 d2 B Sx1 S2) as (d' & Sb). pose proof Sb as (Lb & _).
  set (st := backflow (fn_backflow (ex_net e)) x1 i2) in *.
  assert (Inv : extended_invariance e norbs (reorder s x1) (reorder_opt2 s i2) (reorder s st) = extended_invariance e norbs x1 i2 st).
  { unfold extended_invariance. cbv zeta. rewrite reorder_length. unfold extended_backflow_ok in Be. destruct (ex_backflow e) as [bs|].
    - rewrite (backflow_equivariant bs sizes s x1 i2 d1 d2 Be K N Sx1 S2). destruct (backflow_shape bs sizes x1 i2 d1 d2 Be Sx1 S2) as (dd & Sd).
      pose proof (invariant_tensor_invariant (fn_split (ex_net e)) None (invariance_params (ex_dense e) (zipw (fun h n => (h, (n * fn_ndet (ex_net e))%nat)) (ex_nhidden e) norbs))
        sizes s (backflow bs x1 i2) None dd O D I K N Sd I) as T. change (reorder_opt2 s None) with (@None arr3) in T. rewrite T. reflexivity.
    - pose proof (invariant_tensor_invariant (fn_split (ex_net e)) None (invariance_params (ex_dense e) (zipw (fun h n => (h, (n * fn_ndet (ex_net e))%nat)) (ex_nhidden e) norbs))
        sizes s st None d' O D I K N Sb I) as T. change (reorder_opt2 s None) with (@None arr3) in T. rewrite T. reflexivity. }
  pose proof (eval_orel (ex_net e) (fn_split (ex_net e)) norbs sizes s st r1 D K Lb S3) as Q.
  destruct (eval_orbitals (ex_net e) (fn_split (ex_net e)) norbs st r1) as [Ol|] eqn:El,
    (eval_orbitals (ex_net e) (fn_split (ex_net e)) norbs (reorder s st) (reorder_opt s r1)) as [Ol'|]; try contradiction; [|exact I]. cbn [bind_opt].
  rewrite Inv. destruct (extended_invariance e norbs x1 i2 st) as [Iv|] eqn:Ei; [|exact I]. cbn [bind_opt orel] in *.
  apply append_inv; [exact Q|apply (extended_invariance_length _ _ _ _ _ _ Ei)|].
  assert (Ln : length norbs = length sizes).
  { unfold eval_orbitals, check in El. destruct (Nat.eqb_spec (length norbs) (get_nsplits (fn_split (ex_net e)))) as [En|]; [|discriminate El]. rewrite En. apply nsplits_of. exact D. }
  unfold extended_invariance in Ei. cbv zeta in Ei. unfold check in Ei.
  destruct (match ex_backflow e with Some bs => backflow_ok bs (length x1) | None => true end); [|discriminate]. apply sequence_length in Ei. rewrite map_length in Ei. rewrite Ei.
  rewrite <- (Forall2_len _ _ _ (tensor_shapes (fn_split (ex_net e)) None (ex_dense e) (zipw (fun h n => (h, (n * fn_ndet (ex_net e))%nat)) (ex_nhidden e) norbs) sizes
    (match ex_backflow e with Some bs => backflow bs x1 i2 | None => st end) None D
    ltac:(unfold extended_backflow_ok in Be; destruct (ex_backflow e) as [bs|]; [destruct (backflow_shape bs sizes x1 i2 d1 d2 Be Sx1 S2) as (dd & (Ld & _)); exact Ld|exact Lb])
    ltac:(rewrite zipw_length; lia))).
  rewrite zipw_length. unfold block_signs. rewrite map_length, seq_length. lia.
Qed.
Lemma extended_antisymmetric e sizes d s x : fits sizes d (ex_net e) -> extended_backflow_ok sizes e ->
  keeps_spins sizes s -> (0 < list_sum sizes)%nat -> shape2 (list_sum sizes) d x ->
  extended_call e (reorder s x) = option_map (signed (sign_of (list_sum sizes) s)) (extended_call e x).
Proof.
  intros Fe Be K N Sx. unfold extended_call. rewrite <- (block_signs_prod sizes s K). apply psi_orel. apply (extended_orel e sizes d); assumption.
Qed.
Lemma extended_coincide e sizes d x i j p : fits sizes d (ex_net e) -> extended_backflow_ok sizes e ->
  shape2 (list_sum sizes) d x -> coincide sizes x i j -> extended_call e x = Some p ->
  (p = (NaN, NaN) \/ (fn_det_fn (ex_net e) <> None /\ p = (Fin 0, MInf))).
Proof.
  intros Fe Be Sx (Hi & Hj & Ne & Sp & E). pose proof Sx as (L & _). assert (K := exchange_keeps sizes i j Hi Hj Sp).
  pose proof (extended_orel e sizes d (exchange i j) x Fe Be K ltac:(lia) Sx) as O. rewrite (reorder_exchange_same x i j []) in O by (rewrite ?L; assumption).
  assert (Es : lprod (block_signs sizes (exchange i j)) = -1) by (rewrite (block_signs_prod sizes _ K); apply exchange_sign; assumption).
  unfold extended_call. destruct (extended_orbital_matrices e x) as [Om|]; [|discriminate]. cbn [bind_opt orel] in *. intros Ep.
  destruct (fn_det_fn (ex_net e)) as [fn|] eqn:Ed.
  - destruct (psi_zero_or_nan _ fn _ _ _ O Es Ed Ep) as (v & _ & [(_ & H)|(_ & H)]); [right|left; exact H]. split; [discriminate|exact H].
  - left. apply (psi_nan _ _ _ _ O Es Ed Ep).
Qed.
