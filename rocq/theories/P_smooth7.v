(** * Proofs: the explicitly antisymmetrised models with a one- or two-body Jastrow factor are smooth *)
From Coquelicot Require Import Coquelicot.
From Coq Require Import String Reals List Bool Arith Lia Lra ZArith.
From Verif Require Import XReal S_physics M_slog M_models M_antisym M_construct M_dispatch S_models S_antisym S_construct S_finite P_xsum P_slog P_split P_equiv P_equiv2 P_jastrow P_models P_inv P_parity P_flips P_sgn P_antisym P_antieq P_leibniz P_signsym P_construct P_construct2 P_construct3 P_construct4 P_construct5 P_dispatch P_total P_finite P_finite2 P_smooth P_smooth2 P_smooth3 P_smooth4 P_smooth5 P_smooth6 Rsum Det S_smooth.
Import ListNotations.
Local Open Scope R_scope.

(** ** Antisymmetrised networks *)
Lemma fam_take X p : fam2 X -> fam2 (fun t => take_rows (X t) p).
Proof. intros H. unfold take_rows. apply (fam_index fam1 (fun t i => nth i (X t) [])). intros i _. apply fam_row. exact H. Qed.
Lemma fam_leaf dout (fn : vec -> vec) X : (forall v, fam1 v -> fam1 (fun t => fn (v t))) -> fam2 X -> fam1 (fun t => single_leaf_call dout fn (X t)).
Proof.
  intros Hf HX. unfold single_leaf_call, parallel_permutations. cbv zeta. apply fam_vsum.
  apply (fam_ext _ (fun t => zipw (fun s v => vscale (Fin s) v) (get_lexicographic_signs (length (X 0))) (map (fun y => fn (concat y)) (map (take_rows (X t)) (permutations (length (X 0))))))); [intros t; rewrite (fam_length _ X HX t); reflexivity|].
  apply (fam_zipw_r fam1 fam1 (fun _ s v => vscale (Fin s) v)); [intros f s Hf' _; apply fam_vscale; exact Hf'|].
  apply (fam_map fam2 fam1 (fun _ y => fn (concat y))); [intros f Hf'; apply Hf, fam_concat; exact Hf'|]. apply (fam_index fam2 (fun t p => take_rows (X t) p)). intros p _. apply fam_take. exact HX.
Qed.
Definition signed_fam (ps : R -> arr2 * R) : Prop := fam2 (fun t => fst (ps t)) /\ exists s, forall t, snd (ps t) = s.
Lemma fam_combinations {A} (P : (R -> A) -> Prop) X : famL (famL P) X -> famL (famL P) (fun t => combinations (X t)).
Proof.
  intros (l & E & F). apply (fam_ext _ (fun t => combinations (map (fun f => f t) l))); [intros t; rewrite E; reflexivity|]. clear E. induction F as [|f l Hf _ IH]; [apply (fam_one (famL P) (fun _ => [])), fam_nil|]. cbn [map combinations].
  apply fam_concat, (fam_map P (famL (famL P)) (fun t a => map (cons a) (combinations (map (fun f0 => f0 t) l)))); [|exact Hf]. intros a Ha. apply (fam_map (famL P) (famL P) (fun t => cons (a t))); [|exact IH]. intros c Hc. apply fam_cons; assumption.
Qed.
Lemma sm_signed (c : R -> list (arr2 * R)) u : famL signed_fam c -> sm u -> sm (fun t => fold_left (fun a ps => xmul a (Fin (snd ps))) (c t) (u t)).
Proof.
  intros (l & E & F) Hu. apply (sm_ext (fun t => fold_left (fun a ps => xmul a (Fin (snd ps))) (map (fun f => f t) l) (u t))); [intros t; rewrite E; reflexivity|]. clear E. revert u Hu. induction F as [|f l (_ & s & Es) _ IH]; intros u Hu; [exact Hu|]. cbn [map fold_left].
  apply (IH (fun t => xmul (u t) (Fin (snd (f t))))). apply (sm_ext (fun t => xmul (u t) (Fin s))); [intros t; rewrite Es; reflexivity|]. apply sm_mul; [exact Hu|apply sm_const; reflexivity].
Qed.
Lemma fam_generic dout (fn : vec -> vec) X : (forall v, fam1 v -> fam1 (fun t => fn (v t))) -> famL fam2 X -> sm (fun t => generic_antisymmetrize dout fn (X t)).
Proof.
  intros Hf HX. unfold generic_antisymmetrize. cbv zeta. apply sm_sum.
  apply (fam_map (famL signed_fam) sm (fun _ c => xsum (map (fun k => fold_left (fun a ps => xmul a (Fin (snd ps))) c (nth k (fn (concat (map (fun ps : arr2 * R => concat (fst ps)) c))) (Fin 0))) (seq 0 dout)))).
  - intros c Hc. apply sm_sum, (fam_index sm (fun t k => fold_left (fun a ps => xmul a (Fin (snd ps))) (c t) (nth k (fn (concat (map (fun ps : arr2 * R => concat (fst ps)) (c t)))) (Fin 0)))). intros k _.
    assert (H0 : sm (fun t => nth k (fn (concat (map (fun ps : arr2 * R => concat (fst ps)) (c t)))) (Fin 0))).
    { apply sm_nth, Hf, fam_concat, (fam_map signed_fam fam1 (fun _ ps => concat (fst ps))); [|exact Hc]. intros ps (Hps & _). apply (fam_concat sm (fun t => fst (ps t))). exact Hps. }
    apply (sm_signed c _ Hc H0).
  - apply fam_combinations. apply (fam_map fam2 (famL signed_fam) (fun _ x => combine (fst (parallel_permutations x)) (snd (parallel_permutations x)))); [|exact HX]. intros f Hf'. cbn [parallel_permutations fst snd].
    apply (fam_ext _ (fun t => map (fun ps : list nat * R => (take_rows (f t) (fst ps), snd ps)) (combine (permutations (length (f 0))) (get_lexicographic_signs (length (f 0)))))).
    { intros t. rewrite <- (fam_length _ f Hf' t). generalize (permutations (length (f t))) as q, (get_lexicographic_signs (length (f t))) as s. generalize (f t) as x. clear. intros x. induction q as [|a q IH]; intros [|b s]; try reflexivity. cbn [combine map fst snd]. rewrite IH. reflexivity. }
    apply (fam_index signed_fam (fun t ps => (take_rows (f t) (fst ps), snd ps))). intros ps _. split; [cbn [fst]; apply fam_take; exact Hf'|exists (snd ps); reflexivity].
Qed.
(** Products of the factors: the sign-log form has the values of the plain form. *)
Lemma slog_zipw a b : fins a -> fins b -> zipw slog_multiply (map array_to_slog a) (map array_to_slog b) = map array_to_slog (zipw xmul a b).
Proof.
  intros Ha. revert b. induction Ha as [|u a Hu _ IH]; intros b Hb; [reflexivity|]. destruct Hb as [|v b Hv Hb]; [reflexivity|]. unfold zipw in *. cbn [combine map fst snd]. rewrite <- (IH b Hb). f_equal.
  apply fin_iff in Hu, Hv. destruct Hu as (u' & ->), Hv as (v' & ->). cbn [xmul]. rewrite !to_slog_fin. apply slog_multiply_of.
Qed.
Lemma slog_reduce L : Forall fins L -> reduce (zipw slog_multiply) (map (map array_to_slog) L) = option_map (map array_to_slog) (reduce (zipw xmul) L).
Proof.
  destruct 1 as [|a L Ha Hl]; [reflexivity|]. cbn [map reduce option_map]. f_equal. revert a Ha. induction Hl as [|b L Hb _ IH]; intros a Ha; [reflexivity|]. cbn [map fold_left]. rewrite slog_zipw by assumption. apply IH. apply fins_zipw; [apply fin_mul|exact Ha|exact Hb].
Qed.
Lemma fam_reduce X : fam2 X -> famO fam1 (fun t => reduce (zipw xmul) (X t)).
Proof.
  intros (l & E & F). destruct F as [|f l Hf Fl]; [left; intros t; rewrite E; reflexivity|]. apply (famO_ext _ (fun t => Some (fold_left (zipw xmul) (map (fun g => g t) l) (f t)))); [intros t; rewrite E; reflexivity|]. apply famO_some. clear E. revert f Hf.
  induction Fl as [|g l Hg _ IH]; intros f Hf; [exact Hf|]. cbn [map fold_left]. apply (IH (fun t => zipw xmul (f t) (g t))). apply (fam_zipw sm sm sm (fun _ => xmul)); [intros a b; apply sm_mul|exact Hf|exact Hg].
Qed.
Lemma D2_vals v : fam1 v -> D2 (fun t => lsum (map val (v t))).
Proof.
  intros H. apply (D2_lsum (fun t => map val (v t))). apply (fam_map sm D2 (fun _ => val)); [|exact H]. intros f Hf. apply D2_val. exact Hf.
Qed.
Lemma slogs_of_vals v : fins v -> map array_to_slog v = map slog_of (map val v).
Proof. induction 1 as [|a v Ha _ IH]; [reflexivity|]. cbn [map]. rewrite IH. f_equal. apply fin_iff in Ha. destruct Ha as (r & ->). apply to_slog_fin. Qed.
Lemma fam_slog_sum v : fam1 v -> smooth_value (fun t => slog_sum_over_axis (map array_to_slog (v t))).
Proof.
  intros H. assert (A : famO any (fun t => slog_sum_over_axis (map array_to_slog (v t)))).
  { apply (fam_log_sum (fun t => map array_to_slog (v t))). apply (fam_map sm any (fun _ => array_to_slog)); [intros; exact Logic.I|exact H]. }
  destruct A as [N|(p & _ & E)]; [apply (smooth_ext (fun _ => None)); [intros t; symmetry; apply N|apply smooth_raises]|].
  apply (D2_ext (fun t => lsum (map val (v t)))); [|apply D2_vals; exact H]. intros t. specialize (E t). rewrite E. symmetry. apply number_summed. apply log_sum_spec. rewrite <- E. unfold slog_sum_over_axis. rewrite (slogs_of_vals (v t)) by (apply fam_finite, H). reflexivity.
Qed.
Lemma fam_run e r X : resnet_fin r -> act_sm (en_act e) -> fam1 X -> fam1 (fun t => run_resnet e r (X t)).
Proof. intros (H1 & H2) Ha HX. unfold run_resnet. apply fam_resnet; assumption. Qed.
Lemma mapi_leaves rank (F : nat -> vec -> vec) (xs : list arr2) : mapi (fun b x => single_leaf_call rank (F b) x) xs = zipw (single_leaf_call rank) (mapi (fun b _ => F b) xs) xs.
Proof. unfold mapi, zipw. generalize 0%nat as o. induction xs as [|x xs IH]; intros o; [reflexivity|]. cbn [length seq combine map fst snd]. f_equal. apply IH. Qed.
Definition antisym_fin (k : antisym_kind) : Prop := match k with Factorized _ rs => forall b k, resnet_fin (rs b k) | Generic r => resnet_fin r end.
Lemma antisym_smooth e X : antisym_fin (en_antisym e) -> act_sm (en_act e) -> famL fam2 X -> famO any (fun t => antisym_part e (X t)) /\ smooth_value (fun t => antisym_part e (X t)).
Proof.
  intros Hn Ha HX. unfold antisym_part. destruct (en_antisym e) as [rank rs|r]; cbn [antisym_fin] in Hn.
  - set (fns := fun t => mapi (fun b (_ : arr2) => fun x_one_spin => concat (map (fun k => run_resnet e (rs b k) x_one_spin) (seq 0 rank))) (X t)).
    set (V := fun t => zipw (single_leaf_call rank) (fns t) (X t)).
    assert (HV : fam2 V).
    { apply (fam_ext _ (fun t => mapi (fun b x => single_leaf_call rank (fun x_one_spin => concat (map (fun k => run_resnet e (rs b k) x_one_spin) (seq 0 rank))) x) (X t))).
      - intros t. unfold V, fns. apply mapi_leaves.
      - apply (fam_mapi fam2 fam1 (fun _ b x => single_leaf_call rank (fun x_one_spin => concat (map (fun k => run_resnet e (rs b k) x_one_spin) (seq 0 rank))) x)); [|exact HX]. intros b f Hf. apply fam_leaf; [|exact Hf].
        intros v Hv. apply fam_concat, (fam_index fam1 (fun t k => run_resnet e (rs b k) (v t))). intros k _. apply fam_run; [apply Hn|exact Ha|exact Hv]. }
    assert (E : forall t, bind_opt (factorized_antisymmetrize_slog rank (fns t) (X t)) slog_sum_over_axis = bind_opt (reduce (zipw xmul) (V t)) (fun v => slog_sum_over_axis (map array_to_slog v))).
    { intros t. unfold factorized_antisymmetrize_slog. unfold fns at 1. rewrite mapi_length, Nat.eqb_refl. fold (V t). rewrite slog_reduce by (apply Forall_forall; intros v Hv; pose proof (fam_all_finite V HV t) as Fv; unfold all_finite in Fv; rewrite Forall_forall in Fv; apply Fv; exact Hv).
      destruct (reduce (zipw xmul) (V t)); reflexivity. }
    pose proof (fam_reduce V HV) as HR. split.
    + apply (famO_ext _ _ _ (fun t => eq_sym (E t))). apply (famO_bind fam1 any (fun t => reduce (zipw xmul) (V t)) (fun _ v => slog_sum_over_axis (map array_to_slog v))); [|exact HR]. intros v Hv _. apply (fam_log_sum (fun t => map array_to_slog (v t))). apply (fam_map sm any (fun _ => array_to_slog)); [intros; exact Logic.I|exact Hv].
    + apply (smooth_ext _ _ (fun t => eq_sym (E t))). apply (smooth_none fam1 (fun t => reduce (zipw xmul) (V t)) (fun _ v => slog_sum_over_axis (map array_to_slog v)) HR). intros v Hv _. apply fam_slog_sum. exact Hv.
  - split; [apply famO_some; exact Logic.I|]. destruct (fam_generic 1 (run_resnet e r) X) as (g & Eg & Dg); [intros v Hv; apply fam_run; assumption|exact HX|]. apply (D2_ext g); [|exact Dg]. intros t. unfold generic_antisymmetrize_slog. rewrite Eg, number_array. reflexivity.
Qed.

(** ** One- and two-body Jastrow factors *)
Lemma softened_zero r : 0 <= r -> softened (Fin 0) (Fin r) = Fin r.
Proof. intros H. unfold softened. cbn [xmul xadd xsqrt xsub xopp]. replace (r * r + 0 * 0) with (r * r) by ring. destruct (Rlt_dec (r * r) 0) as [N|N]; [exfalso; pose proof (Rmult_le_pos r r H H); lra|]. cbn. rewrite sqrt_square by exact H. f_equal. ring. Qed.
Lemma norm_nonneg v : fins v -> exists r, 0 <= r /\ norm v = Fin r.
Proof.
  intros H. pose proof (fin_norm v H) as F. apply fin_iff in F. destruct F as (r & E). exists r. split; [|exact E]. unfold norm in E. destruct (xsum _) as [s| | |] eqn:Es; cbn in E; try discriminate. destruct (Rlt_dec s 0); [discriminate|]. injection E as <-. apply sqrt_pos.
Qed.
Lemma sm_norm v : clear v -> sm (fun t => norm (v t)).
Proof.
  intros (Hv & Nv). apply (sm_ext (fun t => softened (Fin 0) (norm (v t)))); [|apply sm_softened; [reflexivity|exact Hv|right; exact Nv]]. intros t. destruct (norm_nonneg (v t) (fam_finite v Hv t)) as (r & P & E). rewrite E. apply softened_zero. exact P.
Qed.
Lemma norm_scaled v k : fins v -> norm (map (fun a => xmul a (Fin k)) v) = xmul (norm v) (Fin (Rabs k)).
Proof.
  intros H. destruct (norm_nonneg v H) as (r & P & E).
  assert (Q : forall w, fins w -> norm w = Fin (sqrt (lsum (map (fun a => val a * val a) w)))).
  { intros w Hw. unfold norm. assert (S0 : xsum (map (fun a => xmul a a) w) = Fin (lsum (map (fun a => val a * val a) w))).
    { clear -Hw. induction Hw as [|a w Ha _ IH]; [reflexivity|]. apply fin_iff in Ha. destruct Ha as (a' & ->). unfold xsum in *. cbn [map fold_right xmul]. rewrite IH. reflexivity. }
    rewrite S0. cbn. destruct (Rlt_dec _ 0) as [N|N]; [|reflexivity]. exfalso. revert N. apply Rle_not_lt. clear. induction w as [|a w IH]; [apply Rle_refl|]. cbn. pose proof (Rle_0_sqr (val a)). unfold Rsqr in *. unfold lsum in IH. lra. }
  rewrite (Q _ H), Q by (apply fins_map; intros a Ha; apply fin_mul; [apply (fins_in v); assumption|reflexivity]). cbn [xmul]. f_equal. rewrite map_map.
  replace (lsum (map (fun x => val (xmul x (Fin k)) * val (xmul x (Fin k))) v)) with (lsum (map (fun a => val a * val a) v) * (k * k)).
  - rewrite sqrt_mult_alt; [|clear; induction v as [|a w IH]; [apply Rle_refl|]; cbn; pose proof (Rle_0_sqr (val a)); unfold Rsqr in *; unfold lsum in IH; lra]. f_equal. apply sqrt_Rsqr_abs.
  - clear -H. induction H as [|a v Ha _ IH]; [cbn; ring|]. apply fin_iff in Ha. destruct Ha as (a' & ->). unfold lsum in *. cbn [map fold_right val xmul]. rewrite <- IH. ring.
Qed.
Lemma sm_one_body k r : fin k -> famL (famL clear) r -> sm (fun t => one_body_exp_decay k true (r t)).
Proof.
  intros Hk Hr. apply fin_iff in Hk. destruct Hk as (k' & ->). unfold one_body_exp_decay. cbv zeta. apply sm_opp, sm_sum, (fam_map (famL clear) sm (fun _ row => xsum (map (fun v => norm (map (fun a => xmul a (Fin k')) v)) row))); [|exact Hr]. intros row Hrow.
  apply sm_sum, (fam_map clear sm (fun _ v => norm (map (fun a => xmul a (Fin k')) v))); [|exact Hrow]. intros v Hv. apply (sm_ext (fun t => xmul (norm (v t)) (Fin (Rabs k')))); [intros t; symmetry; apply norm_scaled, fam_finite, Hv|]. apply sm_mul; [apply sm_norm; exact Hv|apply sm_const; reflexivity].
Qed.
Lemma sm_two_body ei ee c r X : fins ei -> fin ee -> fin c -> famL (famL clear) r -> fam2 X -> apart (X 0) -> sm (fun t => two_body_exp_decay ei ee c true (r t) (displacements (X t) (X t))).
Proof.
  intros Hi He Hc Hr HX Ap. unfold two_body_exp_decay. cbv zeta. apply sm_add; [|apply sm_const; exact Hc]. apply sm_sum, (fam_zipw sm sm sm (fun _ a b => xsub (xmul ee a) b)).
  - intros f g Hf Hg. apply sm_sub; [apply sm_mul; [apply sm_const; exact He|exact Hf]|exact Hg].
  - apply (fam_mapi fam1 sm (fun _ i row => xsum (mapi (fun j v => if Nat.leb i j then v else Fin 0) row))); [|apply fam_ee_norms; [reflexivity|exact HX|exact Ap]]. intros i row Hrow. apply sm_sum, (fam_mapi sm sm (fun _ j v => if Nat.leb i j then v else Fin 0)); [|exact Hrow].
    intros j v Hv. destruct (Nat.leb i j); [exact Hv|apply sm_const; reflexivity].
  - apply (fam_map fam1 sm (fun _ row => xsum (zipw xmul row ei))).
    + intros row Hrow. apply sm_sum, (fam_zipw_l sm sm (fun _ a b => xmul a b)); [|exact Hrow]. intros f b Hf Hb. apply sm_mul; [exact Hf|apply sm_const; apply (fins_in ei); assumption].
    + apply (fam_map (famL clear) fam1 (fun _ => map norm)); [|exact Hr]. intros row Hrow. apply (fam_map clear sm (fun _ => norm)); [|exact Hrow]. apply sm_norm.
Qed.
Definition stream_ee (o : stream_options) (x : arr2) : option arr3 := snd (compute_input_streams o x).
Lemma stream_ee_eq o x : stream_ee o x = if so_2e o then Some (displacements x x) else None.
Proof. unfold stream_ee, compute_input_streams, compute_electron_electron, compute_electron_ion. destruct (so_ion_pos o) as [ions|], (so_ei_norm o), (so_2e o), (so_ee_norm o); reflexivity. Qed.
(** Jastrow factors made of the norms of learned features, where no row of features is zero. *)
Lemma sumsq_large v a r : fins v -> In a v -> a <> Fin 0 -> sumsq v = Fin r -> 0 < r.
Proof.
  intros Hv Ha Na. revert r Ha. induction Hv as [|b v Hb Hv IH]; intros r Ha E; [destruct Ha|]. apply fin_iff in Hb. destruct Hb as (b' & ->). unfold sumsq in *. cbn [map] in E. rewrite xsum_cons in E.
  destruct (xsum (map (fun a => xmul a a) v)) as [s| | |] eqn:Es; try discriminate. cbn in E. injection E as <-. pose proof (sumsq_nonneg v s Es) as P. pose proof (Rle_0_sqr b') as Q. unfold Rsqr in Q.
  destruct Ha as [<-|Ha]; [|pose proof (IH s Ha eq_refl); lra]. assert (b' <> 0) by (intros ->; apply Na; reflexivity). nra.
Qed.
Lemma fam_clear x : fam2 x -> (forall row, In row (x 0) -> exists a, In a row /\ a <> Fin 0) -> famL clear x.
Proof.
  intros (l & E & F) H. exists l. split; [exact E|]. apply Forall_forall. intros f Hf. pose proof (proj1 (Forall_forall _ _) F f Hf) as Ff. split; [exact Ff|]. destruct (H (f 0)) as (a & Ha & Na); [rewrite E; apply in_map_iff; exists f; split; [reflexivity|exact Hf]|].
  intros Z. pose proof (sumsq_large (f 0) a 0 (fam_finite f Ff 0) Ha Na Z). lra.
Qed.
Definition jastrow_rows (bs : option (list block)) (i1 : arr2) (i2 : option arr3) (z : arr2) : arr2 := match bs with Some b => backflow b i1 i2 | None => z end.
Definition rows_nonzero (x : arr2) : Prop := forall row, In row x -> exists a, In a row /\ a <> Fin 0.
Lemma sm_backflow_jastrow bs i1 i2 z : fam2 (fun t => jastrow_rows bs (i1 t) (i2 t) (z t)) -> (0 < length (jastrow_rows bs (i1 0%R) (i2 0%R) (z 0%R)))%nat -> rows_nonzero (jastrow_rows bs (i1 0) (i2 0) (z 0)) ->
  sm (fun t => backflow_jastrow bs true (i1 t) (i2 t) (z t)).
Proof.
  intros HX L N. set (x := fun t => jastrow_rows bs (i1 t) (i2 t) (z t)) in *. apply (sm_ext (fun t => xopp (xdiv (xsum (map norm (x t))) (Fin (INR (length (x 0))))))).
  { intros t. unfold backflow_jastrow. cbv zeta. fold (jastrow_rows bs (i1 t) (i2 t) (z t)). change (jastrow_rows bs (i1 t) (i2 t) (z t)) with (x t). rewrite (fam_length _ x HX t). reflexivity. }
  apply sm_opp, sm_div_const; [|apply not_0_INR; unfold x; lia]. apply sm_sum, (fam_map clear sm (fun _ => norm)); [exact sm_norm|]. apply fam_clear; assumption.
Qed.
Definition jastrow_flow (j : jastrow) : option (option (list block)) := match j with BackflowBased bs | AddedJastrow _ _ _ _ bs => Some bs | _ => None end.
Definition jastrow_act (j : jastrow) : Prop := forall b, jastrow_flow j = Some (Some b) -> Forall block_act b.
Lemma fam_jastrow j sizes d1 d2 o i1 Y2 z Y3 X : jastrow_fin j -> jastrow_built_for sizes j -> jastrow_act j -> positive sizes -> (0 < list_sum sizes)%nat ->
  fam2 i1 -> shape2 (list_sum sizes) d1 (i1 0) -> opt_fam fam3 Y2 -> shape_opt (list_sum sizes) d2 (at_t Y2 0) -> fam2 z -> length (z 0) = list_sum sizes ->
  (forall bs, jastrow_flow j = Some bs -> rows_nonzero (jastrow_rows bs (i1 0) (at_t Y2 0) (z 0))) ->
  opt_fam (famL (famL clear)) Y3 -> fam2 X -> apart (X 0) ->
  famO sm (fun t => jastrow_call j (i1 t) (at_t Y2 t) (z t) (at_t Y3 t) (if so_2e o then Some (displacements (X t) (X t)) else None)).
Proof.
  intros Hj Hb Ha Ps N H1 S1 H2 S2 Hz Lz Nz HY HX Ap.
  assert (TB : forall ions q ei ee, all_finite ions /\ fins q /\ fins ei /\ fin ee -> famO sm (fun t => two_body_part ions q ei ee (at_t Y3 t) (if so_2e o then Some (displacements (X t) (X t)) else None))).
  { intros ions q ei ee (G1 & G2 & G3 & G4). unfold two_body_part. destruct Y3 as [r|]; cbn [at_t opt_fam] in *; [|apply famO_none]. destruct (so_2e o); [|apply famO_none]. apply famO_some, sm_two_body; try assumption. apply scale_finite; assumption. }
  assert (BF : forall bs, (forall b, bs = Some b -> Forall block_fin b) -> match bs with Some b => built_for sizes b | None => True end -> (forall b, bs = Some b -> Forall block_act b) ->
      rows_nonzero (jastrow_rows bs (i1 0) (at_t Y2 0) (z 0)) -> sm (fun t => backflow_jastrow bs true (i1 t) (at_t Y2 t) (z t))).
  { intros bs G1 G2 G3 G4. apply sm_backflow_jastrow; [| |exact G4]; destruct bs as [b|]; cbn [jastrow_rows].
    - apply (fam_backflow b sizes) with (d := d1) (d2 := d2); try assumption; [apply G1|apply G3]; reflexivity.
    - exact Hz.
    - destruct (backflow_shape b sizes (i1 0) (at_t Y2 0) d1 d2 G2 S1 S2) as (d' & (Lb & _)). rewrite Lb. exact N.
    - rewrite Lz. exact N. }
  assert (LC : forall bs (K : R -> option xr), famO sm K -> famO sm (fun t => check (jastrow_backflow_ok bs (length (i1 t))) (K t))).
  { intros bs K HK. apply (famO_ext _ (fun t => check (jastrow_backflow_ok bs (length (i1 0))) (K t))); [intros t; rewrite (fam_length _ i1 H1 t); reflexivity|]. apply famO_check. intros _. exact HK. }
  destruct j as [k|ions q ei ee|bs|ions q ei ee bs]; cbn [jastrow_call jastrow_fin jastrow_built_for jastrow_flow] in *.
  - destruct Y3 as [r|]; cbn [at_t option_map opt_fam] in *; [|apply famO_none]. apply famO_some, sm_one_body; assumption.
  - apply TB. exact Hj.
  - apply LC, famO_some, BF; [exact Hj|exact Hb|intros b ->; apply Ha; reflexivity|apply Nz; reflexivity].
  - apply (famO_bind sm sm _ (fun t a => check (jastrow_backflow_ok bs (length (i1 t))) (Some (xadd (xadd (Fin 0) a) (backflow_jastrow bs true (i1 t) (at_t Y2 t) (z t)))))); [|apply TB; apply Hj].
    intros a Hs _. apply LC, famO_some, sm_add; [apply sm_add; [apply sm_const; reflexivity|exact Hs]|]. apply BF; [apply Hj|exact Hb|intros b ->; apply Ha; reflexivity|apply Nz; reflexivity].
Qed.
Lemma number_scaled p j : number_of (fst p, xadd (snd p) (Fin j)) = number_of p * exp j.
Proof. destruct p as ([s| | |], [l| | |]); cbn; try ring. rewrite exp_plus. ring. Qed.
Lemma explicit_smooth e sizes d X : describes (en_split e) sizes -> built_for sizes (en_backflow e) -> ions_fit d (en_streams e) -> positive sizes -> explicit_fin e -> streams_fin (en_streams e) ->
  Forall block_act (en_backflow e) -> act_sm (en_act e) -> jastrow_built_for sizes (en_jastrow e) -> jastrow_act (en_jastrow e) -> (0 < list_sum sizes)%nat ->
  (forall s bs, stream1 (en_streams e) (X 0) = Some s -> jastrow_flow (en_jastrow e) = Some bs -> rows_nonzero (jastrow_rows bs s (stream2 (en_streams e) (X 0)) (backflow (en_backflow e) s (stream2 (en_streams e) (X 0))))) ->
  away (en_streams e) (X 0) -> shape2 (list_sum sizes) d (X 0) -> fam2 X -> smooth_value (fun t => explicit_call e (X t)).
Proof.
  intros D B Fi Ps (Bf & Hj & _ & Hn) (I1 & I2 & I3) Ba Ha Hb Hja N0 Hnz (Ci & Ap) Sx HX. set (o := en_streams e) in *.
  destruct (streams_smooth o X) as (H1 & H2 & H3); try assumption; [intros ions E; split; [apply I1; exact E|apply Ci; exact E]|].
  destruct (famO_opt _ _ H2) as (Y2 & HY2 & E2). destruct (famO_opt _ _ H3) as (Y3 & HY3 & E3). set (n0 := length (X 0)). set (ee := fun t => if so_2e o then Some (displacements (X t) (X t)) else None).
  apply (smooth_ext (fun t => bind_opt (stream1 o (X t)) (fun s => check (backflow_ok (en_backflow e) n0) (bind_opt (split (en_split e) (backflow (en_backflow e) s (at_t Y2 t))) (fun sp => bind_opt (antisym_part e sp) (fun a =>
    bind_opt (jastrow_call (en_jastrow e) s (at_t Y2 t) (backflow (en_backflow e) s (at_t Y2 t)) (at_t Y3 t) (ee t)) (fun j => Some (fst a, xadd (snd a) j)))))))).
  { intros t. rewrite <- E2, <- E3. unfold ee. rewrite <- stream_ee_eq. unfold explicit_call, stream1, stream2, stream_ei, stream_ee. fold o. destruct (compute_input_streams o (X t)) as (((i1, i2), r1), r2). cbn [fst snd]. unfold n0. rewrite <- (fam_length _ X HX t). reflexivity. }
  apply (smooth_none fam2 (fun t => stream1 o (X t)) (fun t s => check (backflow_ok (en_backflow e) n0) (bind_opt (split (en_split e) (backflow (en_backflow e) s (at_t Y2 t))) (fun sp => bind_opt (antisym_part e sp) (fun a =>
    bind_opt (jastrow_call (en_jastrow e) s (at_t Y2 t) (backflow (en_backflow e) s (at_t Y2 t)) (at_t Y3 t) (ee t)) (fun j => Some (fst a, xadd (snd a) j))))))); [exact H1|].
  intros s Hs1 Es. apply smooth_check. intros _.
  destruct (compute_input_streams o (X 0)) as (((i1, i2), r1), r2) eqn:E. destruct (streams_shape _ _ _ _ Sx Fi _ _ _ _ E) as (S1 & (d2 & S2) & _).
  pose proof (Es 0) as Es0. pose proof (E2 0) as E20. unfold stream1 in Es0. unfold stream2 in E20. rewrite E in Es0, E20. cbn [fst snd] in Es0, E20. pose proof (fun bs => Hnz (s 0) bs (Es 0)) as Hnz0. rewrite (E2 0) in Hnz0. destruct (S1 _ Es0) as (d1 & Sx1). rewrite E20 in S2.
  set (bo := fun t => backflow (en_backflow e) (s t) (at_t Y2 t)).
  assert (HB : fam2 bo) by (apply (fam_backflow (en_backflow e) sizes) with (d := d1) (d2 := d2); assumption).
  destruct (backflow_shape (en_backflow e) sizes (s 0) (at_t Y2 0) d1 d2 B Sx1 S2) as (d' & (Lb & _)). change (length (bo 0) = list_sum sizes) in Lb.
  apply (smooth_ext (fun t => bind_opt (antisym_part e (cut sizes (bo t))) (fun a => bind_opt (jastrow_call (en_jastrow e) (s t) (at_t Y2 t) (bo t) (at_t Y3 t) (ee t)) (fun j => Some (fst a, xadd (snd a) j))))).
  { intros t. fold (bo t). rewrite (split_cut _ sizes (bo t) D); [reflexivity|]. rewrite (fam_length _ bo HB t). exact Lb. }
  destruct (antisym_smooth e (fun t => cut sizes (bo t)) Hn Ha (fam_cut _ _ _ HB)) as ([N|(a & _ & Ea)] & Sa); [apply (smooth_ext (fun _ => None)); [intros t; rewrite N; reflexivity|apply smooth_raises]|].
  destruct (fam_jastrow (en_jastrow e) sizes d1 d2 o s Y2 bo Y3 X Hj Hb Hja Ps N0 Hs1 Sx1 HY2 S2 HB Lb Hnz0 HY3 HX Ap) as [N|(j & Hjs & Ej)]; [apply (smooth_ext (fun _ => None)); [intros t; rewrite Ea; unfold ee; cbn [bind_opt]; rewrite N; reflexivity|apply smooth_raises]|].
  destruct Hjs as (g & Eg & Dg). apply (D2_ext (fun t => (match antisym_part e (cut sizes (bo t)) with Some p => number_of p | None => 0 end) * exp (g t))); [|apply D2_mult; [exact Sa|apply D2_exp; exact Dg]].
  intros t. unfold ee. rewrite Ea. cbn [bind_opt]. rewrite Ej. cbn [bind_opt]. rewrite Eg, number_scaled. reflexivity.
Qed.
