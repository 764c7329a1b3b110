(** * Proofs: attention, blocks, backflows and orbital matrices map smooth families to smooth families *)
From Coquelicot Require Import Coquelicot.
From Coq Require Import String Reals List Bool Arith Lia Lra ZArith.
From Verif Require Import XReal S_physics M_slog M_models M_antisym M_construct M_dispatch S_models S_antisym S_construct P_xsum P_slog P_split P_equiv P_equiv2 P_jastrow P_models P_inv P_parity P_flips P_sgn P_antisym P_antieq P_leibniz P_signsym P_construct P_construct2 P_construct3 P_construct4 P_construct5 P_dispatch P_total P_finite P_finite2 P_smooth P_smooth2 Rsum Det.
Import ListNotations.
Local Open Scope R_scope.

Lemma sm_div F g : sm F -> D2 g -> (forall t, g t <> 0) -> sm (fun t => xdiv (F t) (Fin (g t))).
Proof.
  intros (f & Ef & Df) Dg N. exists (fun t => f t * / g t). split; [intros t; rewrite Ef; cbn; destruct (Req_EM_T (g t) 0) as [E|_]; [destruct (N t E)|reflexivity]|].
  apply D2_mult; [exact Df|]. apply (D2_inv g); [apply N|exact Dg].
Qed.
Lemma sum_scaled {A} (f : A -> R) c (l : list A) : xsum (map (fun a => Fin (f a * c)) l) = Fin (lsum (map f l) * c).
Proof. induction l as [|a l IH]; [cbn; f_equal; ring|]. cbn [map]. rewrite xsum_cons, IH. cbn. f_equal. unfold lsum. cbn. ring. Qed.
Lemma sum_fin {A} (f : A -> R) (l : list A) : xsum (map (fun a => Fin (f a)) l) = Fin (lsum (map f l)).
Proof. induction l as [|a l IH]; [reflexivity|]. cbn [map]. rewrite xsum_cons, IH. reflexivity. Qed.
Lemma lsum_pos {A} (f : A -> R) l : l <> [] -> (forall a, In a l -> 0 < f a) -> 0 < lsum (map f l).
Proof.
  intros N H. induction l as [|a l IH]; [congruence|]. unfold lsum in *. cbn. pose proof (H a (or_introl eq_refl)). destruct l as [|b l]; [cbn; lra|]. specialize (IH ltac:(discriminate) (fun c Hc => H c (or_intror Hc))). lra.
Qed.
(** Softmax does not depend on what is subtracted. *)
Lemma softmax_shift {A} (f : A -> xr) m block xj : fin m -> (forall a, In a block -> fin (f a)) -> In xj block ->
  xdiv (xexp (xsub (f xj) m)) (xsum (map (fun x => xexp (xsub (f x) m)) block)) = xdiv (xexp (f xj)) (xsum (map (fun x => xexp (f x)) block)).
Proof.
  intros Fm Ff Hj. apply fin_iff in Fm. destruct Fm as (c & ->). set (s := fun a => val (f a)). assert (Ef : forall a, In a block -> f a = Fin (s a)) by (intros a Ha; specialize (Ff a Ha); unfold s; destruct (f a); try discriminate; reflexivity).
  rewrite (map_ext_in (fun x => xexp (xsub (f x) (Fin c))) (fun x => Fin (exp (s x) * exp (- c)))) by (intros a Ha; rewrite (Ef a Ha); cbn; f_equal; rewrite <- exp_plus; f_equal; ring).
  rewrite (map_ext_in (fun x => xexp (f x)) (fun x => Fin (exp (s x)))) by (intros a Ha; rewrite (Ef a Ha); reflexivity).
  rewrite sum_scaled, sum_fin, (Ef xj Hj). cbn [xsub xopp xadd xexp]. unfold xsub. cbn.
  assert (P : 0 < lsum (map (fun x => exp (s x)) block)) by (apply lsum_pos; [intros ->; destruct Hj|intros; apply exp_pos]). pose proof (exp_pos (- c)) as Q.
  destruct (Req_EM_T _ 0) as [E|_]; [exfalso; apply Rmult_integral in E; lra|]. destruct (Req_EM_T _ 0) as [E|_]; [lra|]. f_equal.
  replace (exp (s xj + - c)) with (exp (s xj) * exp (- c)) by (symmetry; apply exp_plus). unfold Rminus. try rewrite exp_plus. field. lra.
Qed.
Lemma sm_proj w b h c X : (forall i h c, fin (w i h c)) -> (forall h c, fin (b h c)) -> fam1 X -> sm (fun t => at_proj w b h c (X t)).
Proof. intros Hw Hb H. unfold at_proj. apply sm_add; [apply sm_weighted; [intros i; apply Hw|exact H]|apply sm_const, Hb]. Qed.
Lemma sm_score a h X Y : attention_fin a -> fam1 X -> fam1 Y -> sm (fun t => at_score a h (X t) (Y t)).
Proof.
  intros (Q & Qb & Kk & Kb & _) HX HY. unfold at_score. apply sm_sum. apply (fam_index sm (fun t c => xmul (xdiv (at_proj (at_q a) (at_qb a) h c (X t)) (Fin (sqrt (INR (at_dim a))))) (at_proj (at_k a) (at_kb a) h c (Y t)))).
  intros c Hc. apply in_seq in Hc. apply sm_mul; [|apply sm_proj; assumption]. apply sm_div_const; [apply sm_proj; assumption|]. apply Rgt_not_eq, sqrt_lt_R0, lt_0_INR. lia.
Qed.
Lemma full_all {A} (P : (R -> A) -> Prop) X : full P X -> forall t, X t <> [].
Proof. intros (H & N) t E. apply N. apply length_zero_iff_nil. rewrite <- (fam_length P X H t), E. reflexivity. Qed.
Lemma fam_all_finite X : fam2 X -> forall t, all_finite (X t).
Proof. intros (l & H & F) t. rewrite H. apply Forall_map. eapply Forall_impl; [|exact F]. intros f Hf. apply fam_finite. exact Hf. Qed.
Lemma sm_head a Bk X h c : attention_fin a -> full fam1 Bk -> fam1 X -> sm (fun t => at_head a (Bk t) (X t) h c).
Proof.
  intros Fa HB HX. pose proof Fa as (Q & Qb & Kk & Kb & V & Vb & Oo & Ob). pose proof (full_fam _ _ HB) as HF.
  set (tot := fun t => lsum (map (fun xj => exp (val (at_score a h (X t) xj))) (Bk t))).
  assert (FS : forall t xj, In xj (Bk t) -> fin (at_score a h (X t) xj)).
  { intros t xj Hj. apply fin_score; [exact Fa|apply fam_finite; exact HX|]. pose proof (fam_all_finite Bk HF t) as Z. unfold all_finite in Z. rewrite Forall_forall in Z. apply Z. exact Hj. }
  assert (ES : forall t xj, In xj (Bk t) -> at_score a h (X t) xj = Fin (val (at_score a h (X t) xj))) by (intros t xj Hj; specialize (FS t xj Hj); destruct (at_score a h (X t) xj); try discriminate; reflexivity).
  assert (T : forall t, xsum (map (fun x => xexp (at_score a h (X t) x)) (Bk t)) = Fin (tot t)).
  { intros t. unfold tot. rewrite <- sum_fin. f_equal. apply map_ext_in. intros xj Hj. rewrite (ES t xj Hj). reflexivity. }
  assert (TP : forall t, tot t <> 0) by (intros t; apply Rgt_not_eq, lsum_pos; [apply (full_all _ _ HB)|intros; apply exp_pos]).
  assert (DT : D2 tot).
  { assert (Z : sm (fun t => xsum (map (fun x => xexp (at_score a h (X t) x)) (Bk t)))) by (apply sm_sum, (fam_map fam1 sm (fun t x => xexp (at_score a h (X t) x))); [|exact HF]; intros f Hf; apply sm_exp, sm_score; assumption).
    destruct Z as (g & Eg & Dg). apply (D2_ext g); [|exact Dg]. intros t. specialize (Eg t). rewrite T in Eg. injection Eg as ->. reflexivity. }
  apply (sm_ext (fun t => xsum (map (fun xj => xmul (xdiv (xexp (at_score a h (X t) xj)) (Fin (tot t))) (at_proj (at_v a) (at_vb a) h c xj)) (Bk t)))).
  - intros t. unfold at_head. cbv zeta. f_equal. apply map_ext_in. intros xj Hj. f_equal. rewrite <- T. symmetry. apply softmax_shift; [|apply FS|exact Hj].
    apply max_fin; [intros Z; apply map_eq_nil in Z; exact (full_all _ _ HB t Z)|apply fins_map; apply FS].
  - apply sm_sum, (fam_map fam1 sm (fun t xj => xmul (xdiv (xexp (at_score a h (X t) xj)) (Fin (tot t))) (at_proj (at_v a) (at_vb a) h c xj))); [|exact HF]. intros f Hf.
    apply sm_mul; [apply sm_div; [apply sm_exp, sm_score; assumption|exact DT|exact TP]|apply sm_proj; assumption].
Qed.
Lemma fam_attention a Bk : attention_fin a -> full fam1 Bk -> fam2 (fun t => self_attention a (Bk t)).
Proof.
  intros Fa HB. pose proof Fa as (_ & _ & _ & _ & _ & _ & Oo & Ob). unfold self_attention. apply (fam_map fam1 fam1 (fun t => at_row a (Bk t))); [|apply (full_fam _ _ HB)]. intros f Hf. unfold at_row.
  apply (fam_index sm (fun t g => xadd (xsum (map (fun h => xsum (map (fun c => xmul (at_head a (Bk t) (f t) h c) (at_o a h c g)) (seq 0 (at_dim a)))) (seq 0 (at_heads a)))) (at_ob a g))). intros g _.
  apply sm_add; [|apply sm_const, Ob]. apply sm_sum, (fam_index sm (fun t h => xsum (map (fun c => xmul (at_head a (Bk t) (f t) h c) (at_o a h c g)) (seq 0 (at_dim a))))). intros h _.
  apply sm_sum, (fam_index sm (fun t c => xmul (at_head a (Bk t) (f t) h c) (at_o a h c g))). intros c _. apply sm_mul; [apply sm_head; assumption|apply sm_const, Oo].
Qed.
Definition opt_fam {A} (P : (R -> A) -> Prop) (Y : option (R -> A)) : Prop := match Y with Some f => P f | None => True end.
Definition at_t {A} (Y : option (R -> A)) (t : R) : option A := match Y with Some f => Some (f t) | None => None end.
Lemma fam_one_electron p sizes d2 X Y : layer1_fin p -> act_sm (l1_act p) -> describes (l1_split p) sizes -> positive sizes -> length (X 0) = list_sum sizes -> shape_opt (list_sum sizes) d2 (at_t Y 0) ->
  fam2 X -> opt_fam fam3 Y -> fam2 (fun t => one_electron_layer p (X t) (at_t Y t)).
Proof.
  intros (Hu & Hb & Hm & H2 & Ha & _ & Hs) Hact D Ps L Sy HX HY. unfold one_electron_layer. cbv zeta.
  set (U := fun t => pieces (l1_split p) (map (dense (l1_ndense p) (l1_unmixed p) (l1_bias p)) (X t))). set (V := fun t => mixed_split p (X t)).
  assert (HU : famL fam2 U) by (apply fam_pieces, fam_dense_rows; assumption).
  assert (HV : famL fam2 V).
  { unfold V, mixed_split. destruct (l1_attention p) as [a|]; [|apply fam_means_1e with (sizes := sizes); assumption]. apply (fam_map (full fam1) fam2 (fun _ => self_attention a)); [|apply (fam_pieces_full fam1 _ sizes); assumption].
    intros f Hf. apply fam_attention; [apply Ha; reflexivity|exact Hf]. }
  assert (W : famL fam2 (fun t => match at_t Y t with Some y => tree_sum (tree_sum (U t) (V t)) (transformed_2e_means p y) | None => tree_sum (U t) (V t) end)).
  { pose proof (fam_tree_sum U V HU HV) as HS. destruct Y as [f|]; cbn [at_t opt_fam] in *; [|exact HS]. apply (fam_tree_sum (fun t => tree_sum (U t) (V t)) (fun t => transformed_2e_means p (f t)) HS). apply (fam_means_2e p sizes d2); assumption. }
  set (Wt := fun t => match at_t Y t with Some y => tree_sum (tree_sum (U t) (V t)) (transformed_2e_means p y) | None => tree_sum (U t) (V t) end) in *.
  assert (N : fam2 (fun t => map (map (l1_act p)) (concat (Wt t)))).
  { apply (fam_map fam1 fam1 (fun _ => map (l1_act p))); [|apply fam_concat; exact W]. intros f Hf. apply (fam_map sm sm (fun _ => l1_act p)); [|exact Hf]. intros g Hg. apply Hact. exact Hg. }
  apply (fam_ext _ (fun t => if l1_skip p && Nat.eqb (width (X 0)) (l1_ndense p) then zipw (zipw (fun a b => xmul (l1_scale p) (xadd a b))) (map (map (l1_act p)) (concat (Wt t))) (X t) else map (map (l1_act p)) (concat (Wt t)))).
  { intros t. rewrite (fam_width X HX t). reflexivity. }
  destruct (l1_skip p && Nat.eqb (width (X 0)) (l1_ndense p)); [|exact N].
  apply (fam_zipw fam1 fam1 fam1 (fun _ => zipw (fun a b => xmul (l1_scale p) (xadd a b)))); [|exact N|exact HX]. intros f g Hf Hg. apply (fam_zipw sm sm sm (fun _ a b => xmul (l1_scale p) (xadd a b))); [|exact Hf|exact Hg].
  intros a b Sa Sb. apply sm_mul; [apply sm_const, Hs|apply sm_add; assumption].
Qed.
Lemma fam_two_electron l Y : layer2_fin l -> act_sm (l2_act l) -> fam3 Y -> fam3 (fun t => two_electron_layer l (Y t)).
Proof.
  intros (Hk & Hb & _ & Hs) Hact HY. unfold two_electron_layer. apply (fam_map fam2 fam2 (fun _ => map (two_electron_row l))); [|exact HY]. intros row Hrow. apply (fam_map fam1 fam1 (fun _ => two_electron_row l)); [|exact Hrow].
  intros v Hv. unfold two_electron_row. cbv zeta.
  assert (N : fam1 (fun t => map (l2_act l) (dense (l2_ndense l) (l2_kernel l) (l2_bias l) (v t)))) by (apply (fam_map sm sm (fun _ => l2_act l)); [intros g Hg; apply Hact; exact Hg|]; apply fam_dense; [exact Hk|intros c f E; apply (Hb c f E)|exact Hv]).
  apply (fam_ext _ (fun t => if l2_skip l && Nat.eqb (length (v 0)) (l2_ndense l) then zipw (fun a b => xmul (l2_scale l) (xadd a b)) (map (l2_act l) (dense (l2_ndense l) (l2_kernel l) (l2_bias l) (v t))) (v t) else map (l2_act l) (dense (l2_ndense l) (l2_kernel l) (l2_bias l) (v t)))).
  { intros t. rewrite (fam_length _ v Hv t). reflexivity. }
  destruct (l2_skip l && Nat.eqb (length (v 0)) (l2_ndense l)); [|exact N]. apply (fam_zipw sm sm sm (fun _ a b => xmul (l2_scale l) (xadd a b))); [|exact N|exact Hv]. intros a b Sa Sb. apply sm_mul; [apply sm_const, Hs|apply sm_add; assumption].
Qed.
Lemma fam_backflow bs sizes : blocks_ok sizes bs -> Forall block_fin bs -> Forall block_act bs -> positive sizes -> forall X Y d d2, shape2 (list_sum sizes) d (X 0) -> shape_opt (list_sum sizes) d2 (at_t Y 0) -> fam2 X -> opt_fam fam3 Y ->
  fam2 (fun t => backflow bs (X t) (at_t Y t)).
Proof.
  intros B F A Ps. unfold backflow. induction B as [|b bs Hb _ IH]; intros X Y d d2 Sx Sy HX HY; [exact HX|].
  destruct (residual_shape b sizes (X 0) (at_t Y 0) d d2 Hb Sx Sy) as (d' & d2' & S1 & S2). pose proof (Forall_inv F) as (F1 & F2). apply Forall_inv_tail in F. pose proof (Forall_inv A) as (A1 & A2). apply Forall_inv_tail in A.
  set (X' := fun t => one_electron_layer (b_one b) (X t) (at_t Y t)).
  set (Y' := match b_two b, Y with Some l, Some y => Some (fun t => two_electron_layer l (y t)) | _, _ => Y end).
  assert (E : forall t, residual_block b (X t) (at_t Y t) = (X' t, at_t Y' t)) by (intros t; unfold residual_block, X', Y'; destruct (b_two b), Y; reflexivity).
  apply (fam_ext _ (fun t => fst (backflow_streams bs (X' t) (at_t Y' t)))); [intros t; cbn [backflow_streams]; rewrite E; reflexivity|].
  rewrite E in S1, S2. cbn [fst snd] in S1, S2. apply (IH F A X' Y' d' d2' S1 S2).
  - apply (fam_one_electron _ sizes d2); try assumption. apply Sx.
  - unfold Y'. destruct (b_two b) as [l|]; [|exact HY]. destruct Y as [y|]; [|exact HY]. cbn [opt_fam] in *. apply fam_two_electron; [apply F2; reflexivity|apply A2; reflexivity|exact HY].
Qed.

(** ** Orbitals *)
Lemma sumsq_scaled k v : fins v -> sumsq (map (fun a => xmul a (Fin k)) v) = xmul (Fin (k * k)) (sumsq v).
Proof.
  unfold sumsq. induction 1 as [|a v Ha H IH]; [cbn; f_equal; ring|]. cbn [map] in *. rewrite !xsum_cons, IH. apply fin_iff in Ha. destruct Ha as (r & ->).
  assert (Z : fin (xsum (map (fun a => xmul a a) v))) by (apply fin_xsum, fins_map; intros b Hb; assert (fin b) by (apply (fins_in v); assumption); apply fin_mul; assumption). apply fin_iff in Z. destruct Z as (q & ->). cbn. f_equal. ring.
Qed.
Lemma sm_envelope l p row orb : orbital_fin p -> fin (ol_soft l) -> (ol_isotropic l = true \/ ol_soft l <> Fin 0) -> famL clear row -> sm (fun t => envelope l p (row t) orb).
Proof.
  intros (_ & _ & Hi & Ha & Ho) Hs Ok Hr. unfold envelope. apply sm_sum. apply (fam_mapi clear sm (fun _ ion v => xmul (xexp (xopp (softened (ol_soft l) (norm (scaled_displacement l p orb ion v))))) (o_ion p orb ion))); [|exact Hr].
  intros ion v (Hv & Nv). apply sm_mul; [|apply sm_const, Ho]. apply sm_exp, sm_opp. unfold scaled_displacement. destruct (ol_isotropic l).
  - specialize (Hi orb). apply fin_iff in Hi. destruct Hi as (k & Ek). rewrite Ek.
    assert (HV : fam1 (fun t => map (fun a => xmul a (Fin k)) (v t))) by (apply (fam_map sm sm (fun _ a => xmul a (Fin k))); [|exact Hv]; intros f Hf; apply sm_mul; [exact Hf|apply sm_const; reflexivity]).
    destruct (Req_EM_T k 0) as [->|Nk].
    + apply (sm_ext (fun _ => softened (ol_soft l) (norm (map (fun a => xmul a (Fin 0)) (v 0))))); [|apply sm_const, fin_softened; [exact Hs|apply fin_norm; apply (fam_finite _ HV 0)]].
      intros t. f_equal. unfold norm. f_equal. fold (sumsq (map (fun a => xmul a (Fin 0)) (v 0))). fold (sumsq (map (fun a => xmul a (Fin 0)) (v t))). rewrite !sumsq_scaled by (apply fam_finite; exact Hv).
      destruct (sm_sumsq v Hv) as (g & Eg & _). rewrite !Eg. cbn. f_equal. ring.
    + apply (sm_softened (ol_soft l) (fun t => map (fun a => xmul a (Fin k)) (v t)) Hs HV). right. rewrite sumsq_scaled by (apply fam_finite; exact Hv). destruct (sm_sumsq v Hv) as (g & Eg & _). rewrite Eg in *. cbn. intros [= E]. apply Nv. f_equal.
      apply Rmult_integral in E. destruct E as [E|E]; [|exact E]. exfalso. apply Rmult_integral in E. destruct E; contradiction.
  - destruct Ok as [Ok|Ok]; [discriminate|]. cbv zeta.
    apply (sm_softened (ol_soft l) (fun t => map (fun c => nth (c * o_norb p + orb) (dense (length (v t) * o_norb p) (o_aniso p ion) None (v t)) (Fin 0)) (seq 0 (length (v t)))) Hs); [|left; exact Ok].
    apply (fam_ext _ (fun t => map (fun c => nth (c * o_norb p + orb) (dense (length (v 0) * o_norb p) (o_aniso p ion) None (v t)) (Fin 0)) (seq 0 (length (v 0))))); [intros t; rewrite (fam_length _ v Hv t); reflexivity|].
    apply (fam_index sm (fun t c => nth (c * o_norb p + orb) (dense (length (v 0) * o_norb p) (o_aniso p ion) None (v t)) (Fin 0))). intros c _. apply (sm_nth (fun t => dense (length (v 0) * o_norb p) (o_aniso p ion) None (v t))). apply fam_dense; [apply Ha|intros ? ? E; discriminate|exact Hv].
Qed.
Lemma fam_orbitals l X Rr : Forall orbital_fin (ol_splits l) -> fin (ol_soft l) -> (ol_isotropic l = true \/ ol_soft l <> Fin 0) -> fam2 X -> opt_fam (famL (famL clear)) Rr ->
  famL fam2 (fun t => ferminet_orbitals l (X t) (at_t Rr t)).
Proof.
  intros Ho Hs Ok HX HR. unfold ferminet_orbitals. cbv zeta. rewrite Forall_forall in Ho.
  assert (A : famL fam2 (fun t => split_dense l (X t))).
  { unfold split_dense. apply (fam_zipw_l fam2 fam2 (fun _ rows p => map (dense (o_norb p) (o_kernel p) (o_bias p)) rows)); [|apply fam_pieces; exact HX]. intros rows p Hrows Hp. destruct (Ho p Hp) as (Hk & Hb & _). apply fam_dense_rows; assumption. }
  destruct Rr as [r|]; cbn [at_t opt_fam] in *; [|exact A]. unfold tree_prod. apply (fam_zipw fam2 fam2 fam2 (fun _ => zipw (zipw xmul))); [|exact A|].
  - intros f g Hf Hg. apply (fam_zipw fam1 fam1 fam1 (fun _ => zipw xmul)); [|exact Hf|exact Hg]. intros u v Hu Hv. apply (fam_zipw sm sm sm (fun _ => xmul)); [intros a b; apply sm_mul|exact Hu|exact Hv].
  - unfold envelopes. apply (fam_zipw_l (famL (famL clear)) fam2 (fun _ rows p => map (fun row => map (envelope l p row) (seq 0 (o_norb p))) rows)); [|apply fam_pieces; exact HR]. intros rows p Hrows Hp.
    apply (fam_map (famL clear) fam1 (fun _ row => map (envelope l p row) (seq 0 (o_norb p)))); [|exact Hrows]. intros row Hrow. apply (fam_index sm (fun t orb => envelope l p (row t) orb)). intros orb _. apply sm_envelope; [apply Ho; exact Hp|exact Hs|exact Ok|exact Hrow].
Qed.
