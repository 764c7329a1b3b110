(** * Proofs: finite parameters and finite positions give finite values *)
From Coq Require Import String Reals List Bool Arith Lia Lra ZArith.
From Verif Require Import XReal S_physics M_slog M_models M_antisym M_construct M_dispatch S_models S_antisym S_construct P_xsum P_slog P_split P_equiv P_equiv2 P_jastrow P_models P_inv P_parity P_flips P_sgn P_antisym P_antieq P_leibniz P_signsym P_construct P_construct2 P_construct3 P_construct4 P_construct5 P_dispatch P_total.
Import ListNotations.
Local Open Scope R_scope.

(** ** Scalars *)
Definition fin (a : xr) : Prop := isfin a = true.
Lemma fin_iff a : fin a <-> exists r, a = Fin r.
Proof. destruct a; split; try discriminate; try (intros (r & H); discriminate); [intros _; exists r; reflexivity|reflexivity]. Qed.
Lemma fin_val r : fin (Fin r). Proof. reflexivity. Qed.
Lemma fin_add a b : fin a -> fin b -> fin (xadd a b).
Proof. destruct a, b; try discriminate; reflexivity. Qed.
Lemma fin_opp a : fin a -> fin (xopp a).
Proof. destruct a; try discriminate; reflexivity. Qed.
Lemma fin_sub a b : fin a -> fin b -> fin (xsub a b).
Proof. destruct a, b; try discriminate; reflexivity. Qed.
Lemma fin_mul a b : fin a -> fin b -> fin (xmul a b).
Proof. destruct a, b; try discriminate; reflexivity. Qed.
Lemma fin_exp a : fin a -> fin (xexp a).
Proof. destruct a; try discriminate; reflexivity. Qed.
Lemma fin_div a r : fin a -> r <> 0 -> fin (xdiv a (Fin r)).
Proof. destruct a; try discriminate. intros _ H. cbn. destruct (Req_EM_T r 0); [contradiction|reflexivity]. Qed.
Lemma fin_tanh a : fin a -> fin (xtanh a).
Proof. destruct a; try discriminate; reflexivity. Qed.
Lemma fin_gelu a : fin a -> fin (xgelu a).
Proof. destruct a; try discriminate; reflexivity. Qed.
Lemma fin_activation name act : get_named_activation_fn name = Some act -> forall a, fin a -> fin (act a).
Proof. unfold get_named_activation_fn. destruct (String.eqb name "tanh"); [intros [= <-]; apply fin_tanh|]. destruct (String.eqb name "gelu"); [intros [= <-]; apply fin_gelu|discriminate]. Qed.
Lemma fin_xsum l : fins l -> fin (xsum l).
Proof. apply isfin_xsum. Qed.

(** ** Vectors *)
Lemma square_sum v : fins v -> exists r, 0 <= r /\ xsum (map (fun a => xmul a a) v) = Fin r.
Proof.
  induction 1 as [|a v Ha _ (r & Hr & E)]; [exists 0; split; [lra|reflexivity]|]. apply fin_iff in Ha. destruct Ha as (x & ->).
  exists (x * x + r). split; [nra|]. cbn [map xsum fold_right] in *. unfold xsum in E. rewrite E. reflexivity.
Qed.
Lemma fin_norm v : fins v -> fin (norm v).
Proof. intros H. destruct (square_sum v H) as (r & Hr & E). unfold norm. rewrite E. cbn. destruct (Rlt_dec r 0); [lra|reflexivity]. Qed.
Lemma fin_softened s r : fin s -> fin r -> fin (softened s r).
Proof.
  intros Hs Hr. apply fin_iff in Hs. apply fin_iff in Hr. destruct Hs as (a & ->), Hr as (b & ->). unfold softened. cbn. destruct (Rlt_dec _ 0) as [H|_]; [exfalso; nra|reflexivity].
Qed.
Lemma fins_map {A} (f : A -> xr) l : (forall a, In a l -> fin (f a)) -> fins (map f l).
Proof. intros H. apply Forall_map, Forall_forall. exact H. Qed.
Lemma fins_in l a : fins l -> In a l -> fin a.
Proof. intros H. unfold fins in H. rewrite Forall_forall in H. apply H. Qed.
Lemma fins_app a b : fins a -> fins b -> fins (a ++ b).
Proof. intros H1 H2. apply Forall_app. split; assumption. Qed.
Lemma fins_concat L : Forall fins L -> fins (concat L).
Proof. induction 1; [constructor|]. cbn. apply fins_app; assumption. Qed.
Lemma zipw_forall {A B C} (P : A -> Prop) (Q : B -> Prop) (T : C -> Prop) (f : A -> B -> C) a b : (forall x y, P x -> Q y -> T (f x y)) -> Forall P a -> Forall Q b -> Forall T (zipw f a b).
Proof.
  intros H Ha. revert b. induction Ha as [|x a Hx _ IH]; intros b Hb; [constructor|]. destruct Hb as [|y b Hy Hb]; [constructor|].
  unfold zipw. cbn [combine map fst snd]. constructor; [apply H; assumption|apply IH; exact Hb].
Qed.
Lemma fins_zipw f a b : (forall x y, fin x -> fin y -> fin (f x y)) -> fins a -> fins b -> fins (zipw f a b).
Proof. intros H Ha Hb. apply (zipw_forall fin fin fin f a b H Ha Hb). Qed.
Lemma fins_firstn n l : fins l -> fins (firstn n l).
Proof. intros H. apply Forall_forall. intros a Ha. apply (fins_in l); [exact H|]. rewrite <- (firstn_skipn n l). apply in_or_app. left. exact Ha. Qed.
Lemma fins_skipn n l : fins l -> fins (skipn n l).
Proof. intros H. apply Forall_forall. intros a Ha. apply (fins_in l); [exact H|]. rewrite <- (firstn_skipn n l). apply in_or_app. right. exact Ha. Qed.
Lemma row_fins x i : all_finite x -> fins (nth i x []).
Proof. intros H. destruct (lt_dec i (length x)) as [Hi|Hi]; [|rewrite nth_overflow by lia; constructor]. unfold all_finite in H. rewrite Forall_forall in H. apply H, nth_In, Hi. Qed.
Lemma fin_weighted w l : (forall i, fin (w i)) -> fins l -> fin (weighted_sum w l).
Proof.
  intros Hw H. unfold weighted_sum. apply fin_xsum, fins_map. intros (i, a) Hi. apply fin_mul; [|apply Hw]. apply in_combine_r in Hi. apply (fins_in l); assumption.
Qed.
Lemma fins_mean d rows : rows <> [] -> all_finite rows -> fins (vmean d rows).
Proof.
  intros N H. unfold vmean. apply fins_map. intros c _. apply fin_div.
  - apply fin_xsum, fins_map. intros r Hr. apply fins_nth. unfold all_finite in H. rewrite Forall_forall in H. apply H. exact Hr.
  - apply not_0_INR. destruct rows; [congruence|discriminate].
Qed.

(** ** Input streams *)
Definition fin3 (y : arr3) : Prop := Forall all_finite y.
Definition fin3_opt (y : option arr3) : Prop := match y with Some y => fin3 y | None => True end.
Lemma fin3_displacements x y : all_finite x -> all_finite y -> fin3 (displacements x y).
Proof.
  intros Hx Hy. unfold displacements. apply Forall_map. eapply Forall_impl; [|exact Hx]. intros a Ha. apply Forall_map. eapply Forall_impl; [|exact Hy]. intros b Hb. apply fins_zipw; [apply fin_sub|exact Ha|exact Hb].
Qed.
Lemma mapi_forall {A B} (P : B -> Prop) (f : nat -> A -> B) l : (forall i a, In a l -> P (f i a)) -> Forall P (mapi f l).
Proof.
  intros H. unfold mapi, zipw. apply Forall_map, Forall_forall. intros (i, a) Hi. apply H. apply in_combine_r in Hi. exact Hi.
Qed.
Lemma fin_ee_norms r s : fin3 r -> fin s -> Forall fins (compute_ee_norm_with_safe_diag r s).
Proof.
  intros Hr Hs. unfold compute_ee_norm_with_safe_diag. apply mapi_forall. intros i row Hrow. apply mapi_forall. intros j v Hv.
  assert (E : fin (eye i j)) by (unfold eye; destruct (Nat.eqb i j); reflexivity). apply fin_mul; [|apply fin_sub; [apply fin_val|exact E]]. apply fin_softened; [exact Hs|]. apply fin_norm, fins_map.
  intros a Ha. apply fin_add; [|exact E]. unfold fin3 in Hr. rewrite Forall_forall in Hr. specialize (Hr row Hrow). unfold all_finite in Hr. rewrite Forall_forall in Hr. apply (fins_in v); [apply Hr; exact Hv|exact Ha].
Qed.
Lemma streams_finite o x i1 i2 r1 r2 : (forall ions, so_ion_pos o = Some ions -> all_finite ions) -> fin (so_ei_soft o) -> fin (so_ee_soft o) -> all_finite x ->
  compute_input_streams o x = (i1, i2, r1, r2) ->
  (forall x1, rows_of_input i1 = Some x1 -> all_finite x1) /\ fin3_opt i2 /\ fin3_opt r1 /\ fin3_opt r2.
Proof.
  intros Hi H1 H2 Hx E. unfold compute_input_streams in E.
  destruct (compute_electron_ion x (so_ion_pos o) (so_ei_norm o) (so_ei_soft o)) as (j, q) eqn:Ej.
  assert (A : (forall x1, rows_of_input j = Some x1 -> all_finite x1) /\ fin3_opt q).
  { unfold compute_electron_ion in Ej. destruct (so_ion_pos o) as [ions|] eqn:Ei.
    - pose proof (fin3_displacements x ions Hx (Hi ions eq_refl)) as D. destruct (so_ei_norm o).
      + injection Ej as <- <-. split; [|exact D]. intros x1 [= <-]. apply Forall_map. eapply Forall_impl; [|exact D]. intros row Hrow. apply fins_concat, Forall_map. eapply Forall_impl; [|exact Hrow].
        intros v Hv. apply fins_app; [exact Hv|]. constructor; [|constructor]. apply fin_softened; [exact H1|apply fin_norm; exact Hv].
      + injection Ej as <- <-. split; [discriminate|exact D].
    - injection Ej as <- <-. split; [intros x1 [= <-]; exact Hx|exact Logic.I]. }
  destruct A as (A1 & A2). destruct (so_2e o).
  - unfold compute_electron_electron in E. pose proof (fin3_displacements x x Hx Hx) as D. destruct (so_ee_norm o); injection E as <- <- <- <-; (split; [exact A1|]); (split; [|split; [exact A2|exact D]]); [|exact D].
    apply (zipw_forall all_finite fins all_finite); [|exact D|apply fin_ee_norms; [exact D|exact H2]].
    intros row ns Hrow Hns. apply (zipw_forall fins fin fins); [|exact Hrow|exact Hns]. intros v n Hv Hn. apply fins_app; [exact Hv|constructor; [exact Hn|constructor]].
  - injection E as <- <- <- <-. split; [exact A1|]. split; [exact Logic.I|]. split; [exact A2|exact Logic.I].
Qed.

(** ** Layers with finite parameters *)
Definition attention_fin (a : attention_params) : Prop :=
  (forall i h c, fin (at_q a i h c)) /\ (forall h c, fin (at_qb a h c)) /\ (forall i h c, fin (at_k a i h c)) /\ (forall h c, fin (at_kb a h c)) /\
  (forall i h c, fin (at_v a i h c)) /\ (forall h c, fin (at_vb a h c)) /\ (forall i h c, fin (at_o a i h c)) /\ (forall c, fin (at_ob a c)).
Definition bias_fin (b : option (nat -> xr)) : Prop := forall c f, b = Some c -> fin (c f).
Definition layer1_fin (p : layer1) : Prop :=
  (forall i f, fin (l1_unmixed p i f)) /\ bias_fin (l1_bias p) /\ (forall i f, fin (l1_mixed p i f)) /\ (forall i f, fin (l1_2e p i f)) /\
  (forall a, l1_attention p = Some a -> attention_fin a) /\ (forall a, fin a -> fin (l1_act p a)) /\ fin (l1_scale p).
Definition layer2_fin (p : layer2) : Prop := (forall i f, fin (l2_kernel p i f)) /\ bias_fin (l2_bias p) /\ (forall a, fin a -> fin (l2_act p a)) /\ fin (l2_scale p).
Definition block_fin (b : block) : Prop := layer1_fin (b_one b) /\ forall l, b_two b = Some l -> layer2_fin l.
Lemma max_fin l : l <> [] -> fins l -> fin (fold_right xmax MInf l).
Proof.
  intros N H. induction H as [|a l Ha H IH]; [congruence|]. cbn [fold_right]. apply fin_iff in Ha. destruct Ha as (x & ->). destruct l as [|b l]; [reflexivity|].
  specialize (IH ltac:(discriminate)). apply fin_iff in IH. destruct IH as (y & ->). unfold xmax. cbn. destruct (Rltb x y); reflexivity.
Qed.
Lemma fin_proj w b h c row : (forall i h c, fin (w i h c)) -> (forall h c, fin (b h c)) -> fins row -> fin (at_proj w b h c row).
Proof. intros Hw Hb Hr. apply fin_add; [apply fin_weighted; [intros i; apply Hw|exact Hr]|apply Hb]. Qed.
Lemma fin_score a h xi xj : attention_fin a -> fins xi -> fins xj -> fin (at_score a h xi xj).
Proof.
  intros (Q & Qb & Kk & Kb & _) Hi Hj. unfold at_score. apply fin_xsum, fins_map. intros c Hc. apply in_seq in Hc. apply fin_mul; [|apply fin_proj; assumption].
  apply fin_div; [apply fin_proj; assumption|]. apply Rgt_not_eq, sqrt_lt_R0, lt_0_INR. lia.
Qed.
Lemma positive_sum {A} (f : A -> xr) l : l <> [] -> (forall a, In a l -> exists r, 0 < r /\ f a = Fin r) -> exists r, 0 < r /\ xsum (map f l) = Fin r.
Proof.
  intros N H. induction l as [|a l IH]; [congruence|]. destruct (H a (or_introl eq_refl)) as (r & Hr & E). cbn [map]. change (xsum (f a :: map f l)) with (xadd (f a) (xsum (map f l))). rewrite E.
  destruct l as [|b l]; [exists (r + 0); split; [lra|reflexivity]|]. destruct (IH ltac:(discriminate) (fun c Hc => H c (or_intror Hc))) as (q & Hq & ->). exists (r + q). split; [lra|reflexivity].
Qed.
Lemma fins_attention a block xi : attention_fin a -> block <> [] -> all_finite block -> fins xi -> fins (at_row a block xi).
Proof.
  intros Fa N Hb Hi. pose proof Fa as (Q & Qb & Kk & Kb & V & Vb & Oo & Ob). unfold at_row. apply fins_map. intros f _. apply fin_add; [|apply Ob]. apply fin_xsum, fins_map. intros h _. apply fin_xsum, fins_map. intros c _.
  apply fin_mul; [|apply Oo]. unfold at_head. cbv zeta. set (m := fold_right xmax MInf (map (at_score a h xi) block)).
  assert (Hm : fin m) by (apply max_fin; [intros Z; apply map_eq_nil in Z; contradiction|apply fins_map; intros r Hr; apply fin_score; [exact Fa|exact Hi|unfold all_finite in Hb; rewrite Forall_forall in Hb; apply Hb; exact Hr]]).
  assert (He : forall xj, In xj block -> exists r, 0 < r /\ xexp (xsub (at_score a h xi xj) m) = Fin r).
  { intros xj Hj. assert (Z : fin (xsub (at_score a h xi xj) m)) by (apply fin_sub; [apply fin_score; [exact Fa|exact Hi|unfold all_finite in Hb; rewrite Forall_forall in Hb; apply Hb; exact Hj]|exact Hm]).
    apply fin_iff in Z. destruct Z as (z & ->). exists (exp z). split; [apply exp_pos|reflexivity]. }
  destruct (positive_sum (fun xj => xexp (xsub (at_score a h xi xj) m)) block N He) as (t & Ht & ->).
  apply fin_xsum, fins_map. intros xj Hj. destruct (He xj Hj) as (r & Hr & ->). apply fin_mul; [apply fin_div; [reflexivity|lra]|]. apply fin_proj; [exact V|exact Vb|].
  unfold all_finite in Hb. rewrite Forall_forall in Hb. apply Hb. exact Hj.
Qed.
Lemma fins_dense n k b x : (forall i f, fin (k i f)) -> bias_fin b -> fins x -> fins (dense n k b x).
Proof. intros. apply dense_finite; assumption. Qed.
Lemma bias_none : bias_fin None. Proof. intros c f E. discriminate. Qed.
Lemma cut_finite sizes x : all_finite x -> Forall all_finite (cut sizes x).
Proof.
  revert x. induction sizes as [|n sizes IH]; intros x H; [constructor|]. cbn [cut]. unfold all_finite in *. rewrite <- (firstn_skipn n x) in H. apply Forall_app in H. destruct H as (H1 & H2). constructor; [exact H1|apply IH; exact H2].
Qed.
Lemma cut_nonempty {A} sizes (x : list A) : length x = list_sum sizes -> Forall (fun n => (0 < n)%nat) sizes -> Forall (fun b => b <> []) (cut sizes x).
Proof.
  revert x. induction sizes as [|n sizes IH]; intros x L F; [constructor|]. inversion F as [|? ? Hn F']; subst. cbn [cut]. cbn [list_sum fold_right] in L. constructor.
  - intros Z. apply (f_equal (@length A)) in Z. rewrite firstn_length in Z. cbn in Z. unfold list_sum in L. lia.
  - apply IH; [rewrite skipn_length, L; unfold list_sum; lia|exact F'].
Qed.
Lemma means_finite d sizes x : length x = list_sum sizes -> Forall (fun n => (0 < n)%nat) sizes -> all_finite x -> Forall fins (map (vmean d) (cut sizes x)).
Proof.
  intros L F H. apply Forall_map. pose proof (cut_finite sizes x H) as Fc. pose proof (cut_nonempty sizes x L F) as Nc. apply Forall_forall. intros b Hb. rewrite Forall_forall in Fc, Nc. apply fins_mean; [apply Nc|apply Fc]; exact Hb.
Qed.
Lemma roll_forall {A} (P : A -> Prop) b l : Forall P l -> Forall P (roll b l).
Proof. intros H. unfold roll. rewrite <- (firstn_skipn b l) in H. apply Forall_app in H. destruct H. apply Forall_app. split; assumption. Qed.
Definition positive (sizes : list nat) : Prop := Forall (fun n => (0 < n)%nat) sizes.
Lemma fins_layer_row p sizes x y b xi yi : layer1_fin p -> positive sizes -> (b < length sizes)%nat -> length x = list_sum sizes -> all_finite x -> fins xi ->
  (forall z, y = Some z -> length yi = list_sum sizes /\ all_finite yi) -> fins (layer_row p sizes x y b xi yi).
Proof.
  intros (Hu & Hb & Hm & H2 & Ha & Hf & Hs) Ps Lb L Fx Fi Fy.
  assert (M : fins (mix_row p sizes x b xi)).
  { unfold mix_row. destruct (l1_attention p) as [a|].
    - pose proof (cut_finite sizes x Fx) as Fc. pose proof (cut_nonempty sizes x L Ps) as Nc. rewrite Forall_forall in Fc, Nc.
      assert (I : In (nth b (cut sizes x) []) (cut sizes x)) by (apply nth_In; rewrite cut_length; exact Lb). apply fins_attention; [apply Ha; reflexivity|apply Nc; exact I|apply Fc; exact I|exact Fi].
    - apply fins_dense; [exact Hm|apply bias_none|]. pose proof (means_finite (width x) sizes x L Ps Fx) as F. unfold spin_means. destruct (l1_cyclic p); apply fins_concat; [apply roll_forall|]; exact F. }
  unfold layer_row. cbv zeta.
  assert (U : fins (vadd (dense (l1_ndense p) (l1_unmixed p) (l1_bias p) xi) (mix_row p sizes x b xi))) by (apply fins_zipw; [apply fin_add|apply fins_dense; assumption|exact M]).
  assert (V : fins (match y with Some z => vadd (vadd (dense (l1_ndense p) (l1_unmixed p) (l1_bias p) xi) (mix_row p sizes x b xi)) (two_term p sizes (width (hd [] z)) b yi) | None => vadd (dense (l1_ndense p) (l1_unmixed p) (l1_bias p) xi) (mix_row p sizes x b xi) end)).
  { destruct y as [z|]; [|exact U]. destruct (Fy z eq_refl) as (Ly & Fz). apply fins_zipw; [apply fin_add|exact U|]. unfold two_term. cbv zeta. apply fins_dense; [exact H2|apply bias_none|].
    pose proof (means_finite (width (hd [] z)) sizes yi Ly Ps Fz) as F. destruct (l1_cyclic p); apply fins_concat; [apply roll_forall|]; exact F. }
  assert (W := fins_map (l1_act p) _ (fun a I => Hf a (fins_in _ a V I))).
  destruct (l1_skip p && Nat.eqb (width x) (l1_ndense p)); [|exact W]. apply fins_zipw; [|exact W|exact Fi]. intros a c Fa Fc. apply fin_mul; [exact Hs|apply fin_add; assumption].
Qed.
Lemma spin_of_lt sizes i : (i < list_sum sizes)%nat -> (spin_of sizes i < length sizes)%nat.
Proof.
  revert i. induction sizes as [|n sizes IH]; intros i H; [cbn in H; lia|]. cbn [spin_of length]. destruct (Nat.ltb_spec i n); [lia|]. cbn [list_sum fold_right] in H. specialize (IH (i - n)%nat). unfold list_sum in *. lia.
Qed.
Lemma fin3_row y i : fin3 y -> all_finite (nth i y []).
Proof. intros H. destruct (lt_dec i (length y)) as [Hi|Hi]; [|rewrite nth_overflow by lia; constructor]. unfold fin3 in H. rewrite Forall_forall in H. apply H, nth_In, Hi. Qed.
Lemma one_electron_finite p sizes x y d2 : describes (l1_split p) sizes -> layer1_fin p -> positive sizes -> length x = list_sum sizes -> shape_opt (list_sum sizes) d2 y -> all_finite x -> fin3_opt y ->
  all_finite (one_electron_layer p x y).
Proof.
  intros D Hp Ps L Sy Fx Fy. rewrite (one_electron_rows p sizes x y D L (shape3_good _ d2 y Sy)). apply Forall_map_seq. intros i Hi.
  apply fins_layer_row; try assumption; [apply spin_of_lt; exact Hi|apply row_fins; exact Fx|]. intros z Ez. subst y. cbn [rows_of]. destruct (shape3_good _ d2 _ Sy) as (Lz & Fz). split; [|apply fin3_row; exact Fy].
  rewrite Forall_forall in Fz. apply Fz, nth_In. lia.
Qed.
Lemma two_electron_finite l y : layer2_fin l -> fin3 y -> fin3 (two_electron_layer l y).
Proof.
  intros (Hk & Hb & Hf & Hs) Fy. unfold two_electron_layer. apply Forall_map. eapply Forall_impl; [|exact Fy]. intros row Fr. apply Forall_map. eapply Forall_impl; [|exact Fr]. intros v Fv.
  unfold two_electron_row. cbv zeta. assert (W := fins_map (l2_act l) _ (fun a I => Hf a (fins_in _ a (fins_dense (l2_ndense l) _ _ v Hk Hb Fv) I))).
  destruct (l2_skip l && Nat.eqb (length v) (l2_ndense l)); [|exact W]. apply fins_zipw; [|exact W|exact Fv]. intros a c Fa Fc. apply fin_mul; [exact Hs|apply fin_add; assumption].
Qed.
Lemma streams_pass_finite bs sizes : blocks_ok sizes bs -> Forall block_fin bs -> positive sizes -> forall x y d d2, shape2 (list_sum sizes) d x -> shape_opt (list_sum sizes) d2 y -> all_finite x -> fin3_opt y ->
  all_finite (fst (backflow_streams bs x y)).
Proof.
  intros B F Ps. induction B as [|b bs Hb _ IH]; intros x y d d2 Sx Sy Fx Fy; [exact Fx|]. cbn [backflow_streams].
  destruct (residual_shape b sizes x y d d2 Hb Sx Sy) as (d' & d2' & S1 & S2). pose proof (Forall_inv F) as (F1 & F2). apply Forall_inv_tail in F.
  assert (A : all_finite (fst (residual_block b x y))) by (cbn [residual_block fst]; eapply one_electron_finite; try eassumption; apply Sx).
  assert (C : fin3_opt (snd (residual_block b x y))).
  { cbn [residual_block snd]. destruct (b_two b) as [l|]; [|exact Fy]. destruct y as [y|]; [|exact Fy]. apply two_electron_finite; [apply F2; reflexivity|exact Fy]. }
  destruct (residual_block b x y) as (x', y'). cbn [fst snd] in *. apply (IH F x' y' d' d2'); assumption.
Qed.
Lemma backflow_finite bs sizes x y d d2 : blocks_ok sizes bs -> Forall block_fin bs -> positive sizes -> shape2 (list_sum sizes) d x -> shape_opt (list_sum sizes) d2 y -> all_finite x -> fin3_opt y ->
  all_finite (backflow bs x y).
Proof. intros B F Ps Sx Sy Fx Fy. exact (streams_pass_finite bs sizes B F Ps x y d d2 Sx Sy Fx Fy). Qed.

(** ** Orbitals *)
Definition orbital_fin (o : orbital_split) : Prop :=
  (forall i f, fin (o_kernel o i f)) /\ bias_fin (o_bias o) /\ (forall f, fin (o_iso o f)) /\ (forall i a f, fin (o_aniso o i a f)) /\ (forall f i, fin (o_ion o f i)).
Lemma fin_envelope l p row orb : orbital_fin p -> fin (ol_soft l) -> all_finite row -> fin (envelope l p row orb).
Proof.
  intros (_ & _ & Hi & Ha & Ho) Hs Fr. unfold envelope. apply fin_xsum. apply mapi_forall. intros ion v Hv. unfold all_finite in Fr. rewrite Forall_forall in Fr. specialize (Fr v Hv).
  apply fin_mul; [|apply Ho]. apply fin_exp, fin_opp, fin_softened; [exact Hs|]. apply fin_norm. unfold scaled_displacement. destruct (ol_isotropic l).
  - apply fins_map. intros a Hin. apply fin_mul; [apply (fins_in v); assumption|apply Hi].
  - cbv zeta. apply fins_map. intros c _. apply fins_nth. apply fins_dense; [apply Ha|apply bias_none|exact Fr].
Qed.
Lemma pieces_forall {A} (P : A -> Prop) s sizes (l : list A) : describes s sizes -> length l = list_sum sizes -> Forall P l -> Forall (Forall P) (pieces s l).
Proof.
  intros D L F. rewrite (pieces_cut s sizes l D L). clear D L. revert l F. induction sizes as [|n sizes IH]; intros l F; [constructor|]. cbn [cut]. rewrite <- (firstn_skipn n l) in F. apply Forall_app in F. destruct F as (F1 & F2).
  constructor; [exact F1|apply IH; exact F2].
Qed.
Lemma orbitals_finite l sizes x r : describes (ol_split l) sizes -> Forall orbital_fin (ol_splits l) -> fin (ol_soft l) -> length x = list_sum sizes -> all_finite x ->
  (forall y, r = Some y -> length y = list_sum sizes /\ fin3 y) -> Forall all_finite (ferminet_orbitals l x r).
Proof.
  intros D Ho Hs L Fx Fr. unfold ferminet_orbitals. cbv zeta.
  assert (A : Forall all_finite (split_dense l x)).
  { unfold split_dense. apply (zipw_forall all_finite orbital_fin all_finite); [|apply (pieces_forall fins _ sizes); assumption|exact Ho]. intros rows p Frows Fp. apply Forall_map. eapply Forall_impl; [|exact Frows].
    intros v Fv. destruct Fp as (Hk & Hb & _). apply fins_dense; assumption. }
  destruct r as [y|]; [|exact A]. destruct (Fr y eq_refl) as (Ly & Fy). unfold tree_prod. apply (zipw_forall all_finite all_finite all_finite); [|exact A|].
  - intros a b Fa Fb. apply (zipw_forall fins fins fins); [|exact Fa|exact Fb]. intros u v Fu Fv. apply fins_zipw; [apply fin_mul|exact Fu|exact Fv].
  - unfold envelopes. apply (zipw_forall (Forall all_finite) orbital_fin all_finite); [|apply (pieces_forall all_finite _ sizes); assumption|exact Ho].
    intros rows p Frows Fp. apply Forall_map. eapply Forall_impl; [|exact Frows]. intros row Frow. apply fins_map. intros orb _. apply fin_envelope; assumption.
Qed.
