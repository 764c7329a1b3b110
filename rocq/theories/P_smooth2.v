(** * Proofs: input streams, layers, backflows and orbitals map smooth families to smooth families *)
From Coquelicot Require Import Coquelicot.
From Coq Require Import String Reals List Bool Arith Lia Lra ZArith.
From Verif Require Import XReal S_physics M_slog M_models M_antisym M_construct M_dispatch S_models S_antisym S_construct P_xsum P_slog P_split P_equiv P_equiv2 P_jastrow P_models P_inv P_parity P_flips P_sgn P_antisym P_antieq P_leibniz P_signsym P_construct P_construct2 P_construct3 P_construct4 P_construct5 P_dispatch P_total P_finite P_smooth Rsum Det.
Import ListNotations.
Local Open Scope R_scope.
Notation fam1 := (famL sm).
Notation fam2 := (famL fam1).
Notation fam3 := (famL fam2).

Lemma fam_mapi' {A B} (P : (R -> A) -> Prop) (Q : (R -> B) -> Prop) (G : R -> nat -> A -> B) X d :
  (forall i f, (i < length (X 0%R))%nat -> P f -> (forall t, nth i (X t) d = f t) -> Q (fun t => G t i (f t))) -> famL P X -> famL Q (fun t => mapi (G t) (X t)).
Proof.
  intros HG (l & H & F). exists (mapi (fun i f t => G t i (f t)) l). split.
  - intros t. rewrite H. unfold mapi. rewrite map_length. generalize (seq 0 (length l)) as k. clear. induction l as [|f l IH]; intros [|i k]; try reflexivity. unfold zipw in *. cbn. f_equal. apply IH.
  - rewrite H, map_length in HG. unfold mapi, zipw. apply Forall_map, Forall_forall. intros (i, f) Hi. cbn [fst snd].
    assert (E : nth_error l i = Some f).
    { clear - Hi. assert (G : forall s, In (i, f) (combine (seq s (length l)) l) -> (s <= i)%nat /\ nth_error l (i - s) = Some f).
      { clear Hi. revert i f. induction l as [|g l IH]; intros i f s Hi; [destruct Hi|]. cbn in Hi. destruct Hi as [[= <- <-]|Hi]; [split; [lia|rewrite Nat.sub_diag; reflexivity]|].
        apply IH in Hi. destruct Hi as (L & E). split; [lia|]. replace (i - s)%nat with (S (i - S s)) by lia. exact E. }
      apply G in Hi. destruct Hi as (_ & E). rewrite Nat.sub_0_r in E. exact E. }
    apply HG; [apply nth_error_Some; rewrite E; discriminate|rewrite Forall_forall in F; apply F; eapply nth_error_In; exact E|].
    intros t. rewrite H. assert (L : (i < length l)%nat) by (apply nth_error_Some; rewrite E; discriminate). rewrite (nth_indep _ d (f t)) by (rewrite map_length; exact L).
    rewrite (map_nth (fun g : R -> A => g t) l f i). rewrite (nth_error_nth l i f E). reflexivity.
Qed.
Lemma fam_and {A} (P : (R -> A) -> Prop) (Z : A -> Prop) X : famL P X -> Forall Z (X 0) -> famL (fun f => P f /\ Z (f 0)) X.
Proof.
  intros (l & H & F) Hz. exists l. split; [exact H|]. rewrite H in Hz. rewrite Forall_map in Hz. rewrite Forall_forall in *. intros f Hf. split; [apply F; exact Hf|apply Hz; exact Hf].
Qed.
Lemma fam_finite X : fam1 X -> forall t, fins (X t).
Proof.
  intros (l & H & F) t. rewrite H. apply Forall_map. eapply Forall_impl; [|exact F]. intros f (g & E & _). cbn. rewrite E. reflexivity.
Qed.

(** ** Input streams *)
Definition clear (v : R -> vec) : Prop := fam1 v /\ sumsq (v 0) <> Fin 0.
Definition clear_of (ions : arr2) (x : arr2) : Prop := forall a b, In a x -> In b ions -> sumsq (zipw xsub a b) <> Fin 0.
Definition apart (x : arr2) : Prop := forall i j, (i < length x)%nat -> (j < length x)%nat -> i <> j -> sumsq (zipw xsub (nth i x []) (nth j x [])) <> Fin 0.
Lemma fam_diff X Y : fam1 X -> fam1 Y -> fam1 (fun t => zipw xsub (X t) (Y t)).
Proof. intros HX HY. apply (fam_zipw sm sm sm (fun _ => xsub)); [intros f g; apply sm_sub|exact HX|exact HY]. Qed.
Lemma fam_fixed (v : vec) : fins v -> fam1 (fun _ => v).
Proof. intros H. apply fam_const. eapply Forall_impl; [|exact H]. intros a Ha. apply sm_const. exact Ha. Qed.
Lemma fam_ei ions X : all_finite ions -> fam2 X -> clear_of ions (X 0) -> famL (famL clear) (fun t => displacements (X t) ions).
Proof.
  intros Hi HX C. unfold displacements.
  apply (fam_map (fun f => fam1 f /\ forall b, In b ions -> sumsq (zipw xsub (f 0) b) <> Fin 0) (famL clear) (fun _ a => map (fun b => zipw xsub a b) ions)).
  - intros f (Hf & Hc). apply (fam_index clear (fun t b => zipw xsub (f t) b)). intros b Hb. split; [|apply Hc; exact Hb]. apply (fam_diff f (fun _ => b) Hf). apply fam_fixed. unfold all_finite in Hi. rewrite Forall_forall in Hi. apply Hi. exact Hb.
  - apply (fam_and fam1 (fun a => forall b, In b ions -> sumsq (zipw xsub a b) <> Fin 0) X HX). apply Forall_forall. intros a Ha b Hb. apply C; assumption.
Qed.
Lemma fam_ee X : fam2 X -> fam3 (fun t => displacements (X t) (X t)).
Proof.
  intros HX. unfold displacements. apply (fam_map fam1 fam2 (fun t a => map (fun b => zipw xsub a b) (X t))); [|exact HX]. intros f Hf. apply (fam_map fam1 fam1 (fun t b => zipw xsub (f t) b)); [|exact HX].
  intros g Hg. apply fam_diff; assumption.
Qed.
Lemma sumsq_shift v : sumsq (map (fun a => xadd a (Fin 0)) v) = sumsq v.
Proof. unfold sumsq. rewrite map_map. f_equal. apply map_ext. intros [a| | |]; cbn; try reflexivity. rewrite Rplus_0_r. reflexivity. Qed.
Lemma fam_ee_norms s X : isfin s = true -> fam2 X -> apart (X 0) -> fam2 (fun t => compute_ee_norm_with_safe_diag (displacements (X t) (X t)) s).
Proof.
  intros Fs HX Ap. unfold compute_ee_norm_with_safe_diag.
  pose proof (fam_ee X HX) as HD.
  apply (fam_mapi' fam2 fam1 (fun _ i row => mapi (fun j v => xmul (softened s (norm (map (fun a => xadd a (eye i j)) v))) (xsub (Fin 1) (eye i j))) row) _ []); [|exact HD].
  intros i row Hi Hrow Erow. apply (fam_mapi' fam1 sm (fun _ j v => xmul (softened s (norm (map (fun a => xadd a (eye i j)) v))) (xsub (Fin 1) (eye i j))) row []); [|exact Hrow].
  intros j v Hj Hv Ev. unfold displacements in Hi. rewrite map_length in Hi.
  assert (E0 : v 0 = zipw xsub (nth i (X 0) []) (nth j (X 0) [])).
  { rewrite <- Ev, <- Erow. unfold displacements.
    assert (Hj' : (j < length (X 0%R))%nat) by (rewrite <- Erow in Hj; unfold displacements in Hj; rewrite (nth_indep _ [] (map (fun b => zipw xsub [] b) (X 0))) in Hj by (rewrite map_length; exact Hi); rewrite (map_nth (fun a => map (fun b => zipw xsub a b) (X 0))) in Hj; rewrite map_length in Hj; exact Hj).
    rewrite (nth_indep _ [] (map (fun b => zipw xsub [] b) (X 0))) by (rewrite map_length; exact Hi). rewrite (map_nth (fun a => map (fun b => zipw xsub a b) (X 0))).
    rewrite (nth_indep _ [] (zipw xsub (nth i (X 0) []) [])) by (rewrite map_length; exact Hj'). rewrite (map_nth (fun b => zipw xsub (nth i (X 0) []) b)). reflexivity. }
  assert (Hj' : (j < length (X 0%R))%nat) by (rewrite <- Erow in Hj; unfold displacements in Hj; rewrite (nth_indep _ [] (map (fun b => zipw xsub [] b) (X 0))) in Hj by (rewrite map_length; exact Hi); rewrite (map_nth (fun a => map (fun b => zipw xsub a b) (X 0))) in Hj; rewrite map_length in Hj; exact Hj).
  unfold eye. destruct (Nat.eqb_spec i j) as [<-|N].
  - assert (Z : forall t, isfin (softened s (norm (map (fun a => xadd a (Fin 1)) (v t)))) = true).
    { intros t. apply fin_softened; [exact Fs|]. apply fin_norm, fins_map. intros a Ha. apply fin_add; [|reflexivity]. apply (fins_in (v t)); [apply fam_finite; exact Hv|exact Ha]. }
    apply (sm_ext (fun _ => Fin 0)); [|apply sm_const; reflexivity]. intros t. specialize (Z t). destruct (softened s _); try discriminate. cbn. f_equal. ring.
  - apply sm_mul; [|apply (sm_const (xsub (Fin 1) (Fin 0))); reflexivity]. apply (sm_softened s (fun t => map (fun a => xadd a (Fin 0)) (v t))); [exact Fs| |].
    + apply (fam_map sm sm (fun _ a => xadd a (Fin 0))); [|exact Hv]. intros f Hf. apply sm_add; [exact Hf|apply sm_const; reflexivity].
    + right. rewrite sumsq_shift, E0. apply Ap; assumption.
Qed.
(** Values that may be missing, in the same way everywhere. *)
Definition famO {A} (P : (R -> A) -> Prop) (Y : R -> option A) : Prop := (forall t, Y t = None) \/ exists f, P f /\ forall t, Y t = Some (f t).
Definition stream1 (o : stream_options) (x : arr2) : option arr2 := rows_of_input (fst (fst (fst (compute_input_streams o x)))).
Definition stream2 (o : stream_options) (x : arr2) : option arr3 := snd (fst (fst (compute_input_streams o x))).
Definition stream_ei (o : stream_options) (x : arr2) : option arr3 := snd (fst (compute_input_streams o x)).
Lemma streams_smooth o X : (forall ions, so_ion_pos o = Some ions -> all_finite ions /\ clear_of ions (X 0)) -> isfin (so_ei_soft o) = true -> isfin (so_ee_soft o) = true ->
  apart (X 0) -> fam2 X ->
  famO fam2 (fun t => stream1 o (X t)) /\ famO fam3 (fun t => stream2 o (X t)) /\ famO (famL (famL clear)) (fun t => stream_ei o (X t)).
Proof.
  intros Hi H1 H2 Ap HX. unfold stream1, stream2, stream_ei, compute_input_streams, compute_electron_ion, compute_electron_electron. cbv zeta.
  assert (A : famO fam2 (fun t => rows_of_input (fst (compute_electron_ion (X t) (so_ion_pos o) (so_ei_norm o) (so_ei_soft o)))) /\
              famO (famL (famL clear)) (fun t => snd (compute_electron_ion (X t) (so_ion_pos o) (so_ei_norm o) (so_ei_soft o)))).
  { unfold compute_electron_ion. destruct (so_ion_pos o) as [ions|].
    - destruct (Hi ions eq_refl) as (Fi & Ci). pose proof (fam_ei ions X Fi HX Ci) as D. destruct (so_ei_norm o); cbn [fst snd rows_of_input]; (split; [|right; eexists; split; [exact D|reflexivity]]); [|left; reflexivity].
      right. eexists. split; [|reflexivity]. apply (fam_map (famL clear) fam1 (fun _ row => concat (map (fun v => v ++ [softened (so_ei_soft o) (norm v)]) row))); [|exact D]. intros row Hrow.
      apply fam_concat, (fam_map clear fam1 (fun _ v => v ++ [softened (so_ei_soft o) (norm v)])); [|exact Hrow]. intros v (Hv & Nv). apply fam_app; [exact Hv|]. apply fam_one, sm_softened; [exact H1|exact Hv|right; exact Nv].
    - cbn [fst snd rows_of_input]. split; [right; exists X; split; [exact HX|reflexivity]|left; reflexivity]. }
  destruct A as (A1 & A2). fold (compute_electron_ion).
  assert (E : forall t, exists a b, compute_electron_ion (X t) (so_ion_pos o) (so_ei_norm o) (so_ei_soft o) = (a, b)) by (intros t; destruct (compute_electron_ion (X t) _ _ _) as (a, b); exists a, b; reflexivity).
  split; [|split].
  - destruct A1 as [A1|(f & Hf & A1)]; [left|right; exists f; split; [exact Hf|]]; intros t; specialize (A1 t); unfold compute_electron_ion in A1; destruct (so_ion_pos o) as [ions|], (so_ei_norm o), (so_2e o), (so_ee_norm o); exact A1.
  - assert (B : famO fam3 (fun t => if so_2e o then Some (fst (compute_electron_electron (X t) (so_ee_norm o) (so_ee_soft o))) else None)).
    { destruct (so_2e o); [|left; reflexivity]. right. eexists. split; [|reflexivity]. unfold compute_electron_electron. destruct (so_ee_norm o); cbn [fst]; [|apply fam_ee; exact HX].
      apply (fam_zipw fam2 fam1 fam2 (fun _ => zipw (fun v nrm => v ++ [nrm]))); [|apply fam_ee; exact HX|apply fam_ee_norms; assumption]. intros f g Hf Hg. apply (fam_zipw fam1 sm fam1 (fun _ v nrm => v ++ [nrm])); [|exact Hf|exact Hg].
      intros v n Hv Hn. apply fam_app; [exact Hv|apply fam_one; exact Hn]. }
    destruct B as [B|(f & Hf & B)]; [left|right; exists f; split; [exact Hf|]]; intros t; specialize (B t); unfold compute_electron_electron in B; destruct (so_ion_pos o) as [ions|], (so_ei_norm o), (so_2e o), (so_ee_norm o); exact B.
  - destruct A2 as [A2|(f & Hf & A2)]; [left|right; exists f; split; [exact Hf|]]; intros t; specialize (A2 t); unfold compute_electron_ion in A2; destruct (so_ion_pos o) as [ions|], (so_ei_norm o), (so_2e o), (so_ee_norm o); exact A2.
Qed.

(** ** Layers *)
Definition act_sm (act : xr -> xr) : Prop := forall F, sm F -> sm (fun t => act (F t)).
Definition block_act (b : block) : Prop := act_sm (l1_act (b_one b)) /\ forall l, b_two b = Some l -> act_sm (l2_act l).
Lemma fam_concat_last X : famL fam2 X -> fam2 (fun t => concat_last (X t)).
Proof.
  intros H. unfold concat_last. pose proof (fam_hd fam1 X H) as Hh. apply (fam_ext _ (fun t => map (fun r => concat (map (fun a => nth r a []) (X t))) (seq 0 (length (hd [] (X 0)))))); [intros t; rewrite (fam_length _ _ Hh t); reflexivity|].
  apply (fam_index fam1 (fun t r => concat (map (fun a => nth r a []) (X t)))). intros r _. apply fam_concat, (fam_map fam2 fam1 (fun _ a => nth r a [])); [|exact H]. intros f Hf. apply fam_row. exact Hf.
Qed.
Lemma fam_rolled X n : famL fam2 X -> fam2 (fun t => rolled_concat (X t) n).
Proof. intros H. unfold rolled_concat. apply (fam_concat_last (fun t => skipn n (X t) ++ firstn n (X t))), fam_app; [apply fam_skipn|apply fam_firstn]; exact H. Qed.
Lemma fam_dense_rows n k b X : (forall i f, fin (k i f)) -> bias_fin b -> fam2 X -> fam2 (fun t => map (dense n k b) (X t)).
Proof. intros Hk Hb H. apply (fam_map fam1 fam1 (fun _ => dense n k b)); [|exact H]. intros f Hf. apply fam_dense; [exact Hk|intros c f' E; apply (Hb c f' E)|exact Hf]. Qed.
Lemma fam_width X : fam2 X -> forall t, width (X t) = width (X 0).
Proof. intros H t. unfold width. apply (fam_length sm (fun t => hd [] (X t)) (fam_hd sm X H) t). Qed.
Lemma fam_vadd X Y : fam1 X -> fam1 Y -> fam1 (fun t => vadd (X t) (Y t)).
Proof. intros HX HY. apply (fam_zipw sm sm sm (fun _ => xadd)); [intros f g; apply sm_add|exact HX|exact HY]. Qed.
Lemma fam_add_rows X Y : fam2 X -> fam2 Y -> fam2 (fun t => add_rows (X t) (Y t)).
Proof.
  intros HX HY. unfold add_rows.
  apply (fam_ext _ (fun t => if Nat.eqb (length (X 0)) (length (Y 0)) then zipw vadd (X t) (Y t) else if Nat.eqb (length (Y 0)) 1 then map (fun r => vadd r (hd [] (Y t))) (X t)
     else if Nat.eqb (length (X 0)) 1 then map (fun r => vadd (hd [] (X t)) r) (Y t) else [])); [intros t; rewrite (fam_length _ X HX t), (fam_length _ Y HY t); reflexivity|].
  destruct (Nat.eqb (length (X 0)) (length (Y 0))); [apply (fam_zipw fam1 fam1 fam1 (fun _ => vadd)); [intros f g; apply fam_vadd|exact HX|exact HY]|].
  destruct (Nat.eqb (length (Y 0)) 1); [apply (fam_map fam1 fam1 (fun t r => vadd r (hd [] (Y t)))); [|exact HX]; intros f Hf; apply fam_vadd; [exact Hf|apply fam_hd; exact HY]|].
  destruct (Nat.eqb (length (X 0)) 1); [apply (fam_map fam1 fam1 (fun t r => vadd (hd [] (X t)) r)); [|exact HY]; intros f Hf; apply fam_vadd; [apply fam_hd; exact HX|exact Hf]|apply fam_nil].
Qed.
Lemma fam_tree_sum X Y : famL fam2 X -> famL fam2 Y -> famL fam2 (fun t => tree_sum (X t) (Y t)).
Proof. intros HX HY. apply (fam_zipw fam2 fam2 fam2 (fun _ => add_rows)); [intros f g; apply fam_add_rows|exact HX|exact HY]. Qed.
Lemma full_fam {A} (P : (R -> A) -> Prop) X : full P X -> famL P X. Proof. intros (H & _). exact H. Qed.
Lemma fam_means_1e p sizes X : (forall i f, fin (l1_mixed p i f)) -> describes (l1_split p) sizes -> positive sizes -> length (X 0) = list_sum sizes -> fam2 X ->
  famL fam2 (fun t => transformed_1e_means p (split_mean_keep (l1_split p) (X t))).
Proof.
  intros Hm D Ps L HX.
  assert (M : famL fam2 (fun t => split_mean_keep (l1_split p) (X t))).
  { unfold split_mean_keep. apply (fam_ext _ (fun t => map (fun b => [vmean (width (X 0)) b]) (pieces (l1_split p) (X t)))); [intros t; rewrite (fam_width X HX t); reflexivity|].
    apply (fam_map (full fam1) fam2 (fun _ b => [vmean (width (X 0)) b])); [|apply (fam_pieces_full fam1 _ sizes); assumption]. intros f Hf. apply fam_one, fam_mean. exact Hf. }
  unfold transformed_1e_means. cbv zeta. set (Y := fun t => split_mean_keep (l1_split p) (X t)) in *. destruct (l1_cyclic p).
  - assert (C : famL fam2 (fun t => map (rolled_concat (Y t)) (seq 0 (length (Y 0))))) by (apply (fam_index fam2 (fun t => rolled_concat (Y t))); intros n _; apply fam_rolled; exact M).
    apply (fam_ext _ (fun t => pieces (Equal (length (Y 0))) (map (dense (l1_ndense p) (l1_mixed p) None) (concat (map (rolled_concat (Y t)) (seq 0 (length (Y 0)))))))).
    + intros t. change (split_mean_keep (l1_split p) (X t)) with (Y t). rewrite map_length, seq_length, (fam_length _ Y M t). reflexivity.
    + apply fam_pieces, fam_dense_rows; [exact Hm|apply bias_none|]. apply fam_concat. exact C.
  - apply (fam_ext _ (fun t => repeat (map (dense (l1_ndense p) (l1_mixed p) None) (concat_last (Y t))) (length (Y 0)))); [intros t; change (split_mean_keep (l1_split p) (X t)) with (Y t); rewrite (fam_length _ Y M t); reflexivity|].
    apply (fam_repeat fam2 (fun t => map (dense (l1_ndense p) (l1_mixed p) None) (concat_last (Y t)))). apply fam_dense_rows; [exact Hm|apply bias_none|]. apply fam_concat_last. exact M.
Qed.
Lemma fam_means_2e p sizes d2 Y : (forall i f, fin (l1_2e p i f)) -> describes (l1_split p) sizes -> positive sizes -> shape3 (list_sum sizes) (list_sum sizes) d2 (Y 0) -> fam3 Y ->
  famL fam2 (fun t => transformed_2e_means p (Y t)).
Proof.
  intros Hm D Ps Sy HY. unfold transformed_2e_means. cbv zeta. pose proof (fam_hd fam1 Y HY) as Hh. destruct Sy as (Ly & Fy).
  assert (HY' : famL (fun row => fam2 row /\ shape2 (list_sum sizes) d2 (row 0)) Y) by (apply fam_and; assumption).
  assert (N : get_nsplits (l1_split p) = length sizes) by (apply nsplits_of; exact D).
  apply (fam_ext _ (fun t => pieces (l1_split p) (map (dense (l1_ndense p) (l1_2e p) None) (concat (mapi (fun spin rows =>
     if l1_cyclic p then rolled_concat (split_mean_2e (l1_split p) (width (hd [] (Y 0))) rows) spin else concat_last (split_mean_2e (l1_split p) (width (hd [] (Y 0))) rows)) (pieces (l1_split p) (Y t))))))).
  { intros t. rewrite (fam_width _ Hh t). reflexivity. }
  apply fam_pieces, fam_dense_rows; [exact Hm|apply bias_none|]. apply fam_concat.
  apply (fam_mapi (famL (fun row => fam2 row /\ shape2 (list_sum sizes) d2 (row 0))) fam2 (fun _ spin rows => if l1_cyclic p then rolled_concat (split_mean_2e (l1_split p) (width (hd [] (Y 0))) rows) spin else concat_last (split_mean_2e (l1_split p) (width (hd [] (Y 0))) rows))); [|apply fam_pieces; exact HY'].
  intros spin rows Hr.
  assert (M : famL fam2 (fun t => split_mean_2e (l1_split p) (width (hd [] (Y 0))) (rows t))).
  { unfold split_mean_2e. apply (fam_index fam2 (fun t j => map (fun row => vmean (width (hd [] (Y 0))) (nth j (pieces (l1_split p) row) [])) (rows t))). intros j Hj. apply in_seq in Hj. rewrite N in Hj.
    apply (fam_map (fun row => fam2 row /\ shape2 (list_sum sizes) d2 (row 0)) fam1 (fun _ row => vmean (width (hd [] (Y 0))) (nth j (pieces (l1_split p) row) []))); [|exact Hr].
    intros row (Hrow & Lrow & _). apply (fam_mean _ (fun t => nth j (pieces (l1_split p) (row t)) [])).
    pose proof (fam_pieces_full fam1 (l1_split p) sizes row Hrow D Lrow Ps) as Hp.
    assert (RF : respects (full fam1)) by (intros f g E (Hf & Nf); split; [apply (fam_ext _ f); assumption|rewrite <- E; exact Nf]).
    apply (fam_at (full fam1) (fun t => pieces (l1_split p) (row t)) [] j RF Hp). left. rewrite (pieces_cut _ sizes _ D Lrow), cut_length. lia. }
  destruct (l1_cyclic p); [apply (fam_rolled (fun t => split_mean_2e (l1_split p) (width (hd [] (Y 0))) (rows t)))|apply (fam_concat_last (fun t => split_mean_2e (l1_split p) (width (hd [] (Y 0))) (rows t)))]; exact M.
Qed.
