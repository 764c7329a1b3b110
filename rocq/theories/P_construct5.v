(** * Proofs: explicitly antisymmetrised networks with Jastrow factors *)
From Coq Require Import Reals List Bool Arith Lia Lra Permutation ZArith.
From Verif Require Import XReal Rsum S_physics M_slog M_models M_antisym M_construct S_models S_antisym S_construct P_xsum P_slog P_split P_equiv P_equiv2 P_jastrow P_models P_inv P_parity P_flips P_sgn P_antisym P_antieq P_leibniz P_signsym P_construct P_construct2 P_construct3 P_construct4.
Import ListNotations.
Local Open Scope R_scope.

(** ** The two-body Jastrow factor is invariant for all positions, infinities included *)
Lemma finite_vec (v : vec) : Forall (fun a => isfin a = true) v -> exists u, v = map Fin u.
Proof.
  induction 1 as [|a v Ha _ (u & ->)]; [exists []; reflexivity|]. destruct a as [r| | |]; try discriminate. exists (r :: u). reflexivity.
Qed.
Lemma finite_rows (x : arr2) : all_finite x -> exists y, x = fin2 y.
Proof.
  unfold all_finite. induction 1 as [|v x Hv _ (y & ->)]; [exists []; reflexivity|]. destruct (finite_vec v Hv) as (u & ->). exists (u :: y). reflexivity.
Qed.
Lemma finite_dec (x : arr2) : all_finite x \/ exists i a, (i < length x)%nat /\ In a (nth i x []) /\ isfin a = false.
Proof.
  induction x as [|v x IH]; [left; constructor|].
  assert (V : Forall (fun a => isfin a = true) v \/ exists a, In a v /\ isfin a = false).
  { clear. induction v as [|a v IH]; [left; constructor|]. destruct (isfin a) eqn:E; [|right; exists a; split; [left; reflexivity|exact E]].
    destruct IH as [IH|(b & Hb & Eb)]; [left; constructor; assumption|right; exists b; split; [right; exact Hb|exact Eb]]. }
  destruct V as [V|(a & Ha & Ea)]; [|right; exists O, a; cbn; repeat split; [lia|exact Ha|exact Ea]].
  destruct IH as [IH|(i & a & Hi & Ha & Ea)]; [left; constructor; assumption|right; exists (S i), a; cbn; repeat split; [lia|exact Ha|exact Ea]].
Qed.
Lemma sub_self_nan a : isfin a = false -> xsub a a = NaN. Proof. destruct a; cbn; intros; try discriminate; reflexivity. Qed.
Lemma norm_nan (v : vec) : In NaN v -> norm v = NaN.
Proof. intros H. unfold norm. rewrite xsum_nan; [reflexivity|]. apply in_map_iff. exists NaN. split; [reflexivity|exact H]. Qed.
Lemma zipw_self_in (v : vec) a : In a v -> In (xsub a a) (zipw xsub v v).
Proof. intros H. rewrite zipw_same. apply (in_map (fun a => xsub a a)). exact H. Qed.

Lemma disp_nth x y i j : (i < length x)%nat -> (j < length y)%nat -> nth j (nth i (displacements x y) []) [] = zipw xsub (nth i x []) (nth j y []).
Proof.
  intros Hi Hj. unfold displacements. rewrite (nth_indep _ [] ((fun a => map (fun b => zipw xsub a b) y) [])) by (rewrite map_length; exact Hi).
  rewrite (map_nth (fun a => map (fun b => zipw xsub a b) y)). rewrite (nth_indep _ [] (zipw xsub (nth i x []) [])) by (rewrite map_length; exact Hj).
  apply (map_nth (zipw xsub (nth i x []))).
Qed.
(** Sum over the row of one electron: itself and the electrons after it. *)
Definition ee_row (x : arr2) (i : nat) : xr :=
  xsum (map (fun j => if Nat.leb i j then xmul (softened (Fin 0) (norm (map (fun a => xadd a (eye i j)) (zipw xsub (nth i x []) (nth j x []))))) (xsub (Fin 1) (eye i j)) else Fin 0) (seq 0 (length x))).
Lemma two_body_rows ei ee c x (r : arr3) : length r = length x ->
  two_body_exp_decay ei ee c true r (displacements x x) =
  xadd (xsum (map (fun i => xsub (xmul ee (ee_row x i)) (xsum (zipw xmul (map norm (nth i r [])) ei))) (seq 0 (length x)))) c.
Proof.
  intros Lr. unfold two_body_exp_decay. cbv zeta. rewrite (safe_diag_pointwise (length x) _ _ (displacements_square x)). rewrite mapi_map_seq.
  f_equal. f_equal.
  assert (E : map (fun row => xsum (zipw xmul row ei)) (map (map norm) r) = map (fun i => xsum (zipw xmul (map norm (nth i r [])) ei)) (seq 0 (length x))).
  { rewrite map_map. rewrite <- Lr. rewrite <- (map_map (fun i => nth i r []) (fun row => xsum (zipw xmul (map norm row) ei))). rewrite map_seq_nth. reflexivity. }
  rewrite E, zipw_map_l, zipw_map_r, zipw_same. apply map_ext_in. intros i Hi. apply in_seq in Hi. f_equal. f_equal. unfold ee_row. rewrite mapi_map_seq.
  f_equal. apply map_ext_in. intros j Hj. apply in_seq in Hj. rewrite disp_nth by lia. reflexivity.
Qed.
Lemma two_body_nan_row ei ee c x r i : length r = length x -> (i < length x)%nat -> xmul ee (ee_row x i) = NaN ->
  two_body_exp_decay ei ee c true r (displacements x x) = NaN.
Proof.
  intros Lr Hi E. rewrite two_body_rows by exact Lr. rewrite xsum_nan; [reflexivity|]. apply in_map_iff. exists i. split; [rewrite E; reflexivity|apply in_seq; lia].
Qed.
Lemma two_body_nonfinite ei ee c x r : length r = length x -> ~ all_finite x -> two_body_exp_decay ei ee c true r (displacements x x) = NaN.
Proof.
  intros Lr NF. destruct (finite_dec x) as [F|(i & a & Hi & Ha & Ea)]; [contradiction|]. apply (two_body_nan_row ei ee c x r i Lr Hi).
  assert (E : ee_row x i = NaN); [|rewrite E; apply xmul_nan_r]. unfold ee_row. apply xsum_nan. apply in_map_iff. exists i. split; [|apply in_seq; lia].
  rewrite Nat.leb_refl. rewrite norm_nan; [reflexivity|]. apply in_map_iff. exists NaN. split; [reflexivity|]. rewrite <- (sub_self_nan a Ea). apply zipw_self_in. exact Ha.
Qed.
Lemma two_body_strength_nan ei ee c x r : length r = length x -> (0 < length x)%nat -> all_finite x -> isfin ee = false ->
  two_body_exp_decay ei ee c true r (displacements x x) = NaN.
Proof.
  intros Lr N F E. apply (two_body_nan_row ei ee c x r (length x - 1) Lr); [lia|].
  assert (Z : ee_row x (length x - 1) = Fin 0).
  { destruct (finite_rows x F) as (y & ->). unfold ee_row. set (n := length (fin2 y)) in *.
    rewrite (map_ext_in _ (fun _ => Fin 0)); [apply xsum_map_0|]. intros j Hj. apply in_seq in Hj. destruct (Nat.leb_spec (n - 1) j); [|reflexivity].
    assert (j = (n - 1)%nat) as -> by lia. unfold eye. rewrite Nat.eqb_refl. unfold fin2. change (@nil xr) with (map Fin []). rewrite !map_nth.
    rewrite (zipw_fin xsub Rminus _ _ sub_fin), add_eye_fin, norm_fin, softened_0 by apply sqrt_pos. cbn. f_equal. ring. }
  rewrite Z. destruct ee; try discriminate; cbn; try reflexivity; unfold inf_of_sign; repeat destruct (Rlt_dec _ _); try lra; reflexivity.
Qed.

Lemma ee_row_real y i : exists e, ee_row (fin2 y) i = Fin e.
Proof.
  unfold ee_row. assert (G : forall l : list nat, exists e, xsum (map (fun j => if Nat.leb i j then xmul (softened (Fin 0) (norm (map (fun a => xadd a (eye i j)) (zipw xsub (nth i (fin2 y) []) (nth j (fin2 y) []))))) (xsub (Fin 1) (eye i j)) else Fin 0) l) = Fin e).
  { induction l as [|j l (e & IH)]; [exists 0; reflexivity|]. cbn [map]. rewrite xsum_cons, IH. destruct (Nat.leb i j); [|exists (0 + e); reflexivity].
    unfold fin2. change (@nil xr) with (map Fin []). rewrite !map_nth. assert (Q : exists t, eye i j = Fin t) by (unfold eye; destruct (Nat.eqb i j); eexists; reflexivity). destruct Q as (t & ->).
    rewrite (zipw_fin xsub Rminus _ _ sub_fin), add_eye_fin, norm_fin, softened_0 by apply sqrt_pos. cbn. eexists. reflexivity. }
  apply G.
Qed.
Definition ei_part (ei : vec) (row : arr2) : xr := xopp (xsum (zipw xmul (map norm row) ei)).
Lemma two_body_split ei ee c y r : length r = length y ->
  two_body_exp_decay ei (Fin ee) c true r (displacements (fin2 y) (fin2 y)) =
  xadd (xadd (Fin (ee * pair_total edist y)) (xsum (map (ei_part ei) r))) c.
Proof.
  intros Lr. assert (Ly : length (fin2 y) = length y) by (unfold fin2; apply map_length).
  assert (E : forall f r, length r = length y -> xsum (map (fun i => xsub (xmul (Fin ee) (ee_row (fin2 y) i)) (f (nth i r []))) (seq 0 (length y))) =
              xadd (xsum (map (fun i => xmul (Fin ee) (ee_row (fin2 y) i)) (seq 0 (length y)))) (xsum (map (fun row : arr2 => xopp (f row)) r))).
  { intros f r' L'. unfold xsub. rewrite xsum_map_add. f_equal. rewrite <- L'. rewrite <- (map_map (fun i => nth i r' []) (fun row => xopp (f row))), map_seq_nth. reflexivity. }
  assert (P : xsum (map (fun i => xmul (Fin ee) (ee_row (fin2 y) i)) (seq 0 (length y))) = Fin (ee * pair_total edist y)).
  { pose proof (two_body_real [] [] ee 0 true y) as T. rewrite two_body_rows in T by (unfold displacements; rewrite map_length; reflexivity). rewrite Ly in T.
    rewrite (E (fun row => xsum (zipw xmul (map norm row) (map Fin [])))) in T by (unfold displacements; rewrite map_length; exact Ly).
    rewrite (map_ext (fun row : arr2 => xopp (xsum (zipw xmul (map norm row) (map Fin [])))) (fun _ => Fin 0)) in T.
    - rewrite xsum_map_0, !xadd_0_r in T. rewrite T. cbv zeta. f_equal. unfold ei_total. rewrite (map_ext _ (fun _ => 0)) by reflexivity. 
      replace (lsum (map (fun _ : list R => 0) y)) with 0; [lra|]. clear. induction y as [|a y IH]; [reflexivity|]. cbn. fold (lsum (map (fun _ : list R => 0) y)). rewrite <- IH. lra.
    - intros row. unfold zipw. destruct (map norm row); cbn; f_equal; lra. }
  rewrite two_body_rows by (rewrite Ly; exact Lr). rewrite Ly. f_equal. rewrite (E (fun row => xsum (zipw xmul (map norm row) ei)) r Lr), P. reflexivity.
Qed.
Lemma all_finite_perm x x' : Permutation x x' -> all_finite x -> all_finite x'.
Proof. intros P F. exact (Permutation_Forall P F). Qed.
Lemma two_body_invariant ei ee c s x r : renumbering (length x) s -> (0 < length x)%nat -> length r = length x ->
  two_body_exp_decay ei ee c true (reorder s r) (displacements (reorder s x) (reorder s x)) = two_body_exp_decay ei ee c true r (displacements x x).
Proof.
  intros H N Lr. assert (P := reorder_perm s x H). assert (Lr' : length (reorder s r) = length (reorder s x)) by (rewrite !reorder_length; exact Lr).
  destruct (finite_dec x) as [F|NF].
  - assert (F' : all_finite (reorder s x)) by (apply (all_finite_perm x); [symmetry; exact P|exact F]).
    destruct (isfin ee) eqn:Ee.
    + destruct ee as [e| | |]; try discriminate. destruct (finite_rows x F) as (y & ->). unfold fin2 in *. rewrite reorder_map. rewrite !(two_body_split ei e c).
      * f_equal. f_equal.
        -- do 2 f_equal. rewrite !(pair_total_half edist _ edist_sym edist_refl). f_equal. apply all_total_perm, reorder_perm. rewrite map_length in H. exact H.
        -- apply xsum_perm, Permutation_map, reorder_perm. rewrite Lr. exact H.
      * rewrite map_length in Lr. exact Lr.
      * rewrite !reorder_length in *. rewrite map_length in Lr. exact Lr.
    + rewrite !two_body_strength_nan; try assumption; [reflexivity|]. rewrite reorder_length. exact N.
  - assert (Nx : ~ all_finite x).
    { destruct NF as (i & a & Hi & Ha & Ea). intros F. unfold all_finite in F. rewrite Forall_forall in F. specialize (F _ (nth_In x [] Hi)). rewrite Forall_forall in F. rewrite (F a Ha) in Ea. discriminate. }
    rewrite !two_body_nonfinite; try assumption; [reflexivity|]. intros F. apply Nx, (all_finite_perm (reorder s x)); assumption.
Qed.

(** ** Jastrow factors of a configuration *)
Lemma ee_stream o x i1 i2 r1 r2 : compute_input_streams o x = (i1, i2, r1, r2) -> r2 = if so_2e o then Some (displacements x x) else None.
Proof.
  unfold compute_input_streams. destruct (compute_electron_ion _ _ _ _) as (a, b). destruct (so_2e o).
  - unfold compute_electron_electron. cbv zeta. destruct (so_ee_norm o); intros E; injection E; intros; subst; reflexivity.
  - intros E; injection E; intros; subst; reflexivity.
Qed.
Lemma jastrow_invariant j o sizes s x i1 i2 r1 r2 x1 z d1 d2 : jastrow_built_for sizes j -> keeps_spins sizes s -> (0 < list_sum sizes)%nat -> length x = list_sum sizes ->
  compute_input_streams o x = (i1, i2, r1, r2) -> shape2 (list_sum sizes) d1 x1 -> shape_opt (list_sum sizes) d2 i2 -> length z = list_sum sizes ->
  match r1 with Some r => length r = list_sum sizes | None => True end ->
  jastrow_call j (reorder s x1) (reorder_opt2 s i2) (reorder s z) (reorder_opt s r1) (reorder_opt2 s r2) = jastrow_call j x1 i2 z r1 r2.
Proof.
  intros J K N L E S1 S2 Lz Lr. pose proof K as (H & _).
  assert (T : forall ions q ei ee, two_body_part ions q ei ee (reorder_opt s r1) (reorder_opt2 s r2) = two_body_part ions q ei ee r1 r2).
  { intros ions q ei ee. unfold two_body_part. destruct r1 as [r|]; [|reflexivity]. cbn [reorder_opt option_map].
    assert (E2 := ee_stream o x _ _ _ _ E). assert (E' : compute_input_streams o (reorder s x) = (reorder_input s i1, reorder_opt2 s i2, reorder_opt s (Some r), reorder_opt2 s r2)) by (rewrite (input_streams_equivariant o s x), E by (rewrite L; exact H); reflexivity).
    apply ee_stream in E'. rewrite E'. rewrite E2. destruct (so_2e o); [|reflexivity]. f_equal. apply two_body_invariant; rewrite L; assumption. }
  assert (B : forall bf, bf_ok sizes bf -> backflow_jastrow bf true (reorder s x1) (reorder_opt2 s i2) (reorder s z) = backflow_jastrow bf true x1 i2 z)
    by (intros bf Hb; apply (backflow_jastrow_invariant bf true sizes s x1 i2 z d1 d2); assumption).
  destruct j as [k|ions q ei ee|bf|ions q ei ee bf]; cbn [jastrow_call].
  - destruct r1 as [r|]; [|reflexivity]. cbn [reorder_opt option_map]. f_equal. apply one_body_invariant. rewrite Lr. exact H.
  - apply T.
  - rewrite reorder_length, B; [reflexivity|]. destruct bf; exact J.
  - rewrite T. destruct (two_body_part ions q ei ee r1 r2); [|reflexivity]. cbn [bind_opt]. rewrite reorder_length, B; [reflexivity|]. destruct bf; exact J.
Qed.

(** ** Antisymmetry *)
Lemma mapi_const {A B} (h : nat -> B) (l : list A) : mapi (fun b _ => h b) l = map h (seq 0 (length l)).
Proof.
  unfold mapi. generalize 0%nat as o. induction l as [|a l IH]; intros o; [reflexivity|]. cbn [length seq]. unfold zipw in *. cbn [combine map fst snd]. f_equal. apply IH.
Qed.
Lemma antisym_part_flips e sgs xs xs' : bflips sgs xs xs' -> antisym_part e xs' = option_map (signed (lprod sgs)) (antisym_part e xs).
Proof.
  intros B. assert (U : unit (lprod sgs)) by (apply lprod_unit, (bflips_unit _ _ _ B)). unfold antisym_part. destruct (en_antisym e) as [rank nets|net].
  - rewrite !mapi_const. destruct (bflips_length _ _ _ B) as (L1 & L2). rewrite L1, L2.
    rewrite (factorized_slog_flips _ _ _ _ _ B). destruct (factorized_antisymmetrize_slog _ _ xs) as [l|]; [|reflexivity]. cbn [option_map bind_opt].
    apply log_linear_exp_signed. exact U.
  - cbn [option_map]. f_equal. unfold generic_antisymmetrize_slog. rewrite (generic_flips _ _ _ _ _ B). apply sg_slog. exact U.
Qed.
Lemma explicit_antisymmetric e sizes d s x : describes (en_split e) sizes -> built_for sizes (en_backflow e) -> ions_fit d (en_streams e) -> jastrow_built_for sizes (en_jastrow e) ->
  keeps_spins sizes s -> (0 < list_sum sizes)%nat -> shape2 (list_sum sizes) d x ->
  explicit_call e (reorder s x) = option_map (signed (sign_of (list_sum sizes) s)) (explicit_call e x).
Proof.
  intros D B Fi J K N Sx. pose proof Sx as (L & _). unfold explicit_call.
  rewrite (input_streams_equivariant (en_streams e) s x) by (rewrite L; apply K).
  destruct (compute_input_streams (en_streams e) x) as (((i1, i2), r1), r2) eqn:E.
  destruct (streams_shape _ _ _ _ Sx Fi _ _ _ _ E) as (S1 & (d2 & S2) & S3 & _). rewrite rows_of_reorder.
  destruct (rows_of_input i1) as [x1|]; [|reflexivity]. destruct (S1 x1 eq_refl) as (d1 & Sx1). cbn [option_map bind_opt]. unfold check.
  rewrite reorder_length. destruct (backflow_ok (en_backflow e) (length x)); [|reflexivity]. cbv zeta.
  rewrite (backflow_equivariant (en_backflow e) sizes s x1 i2 d1 d2 B K N Sx1 S2).
  destruct (backflow_shape (en_backflow e) sizes x1 i2 d1 d2 B Sx1 S2) as (d' & Sb). set (bo := backflow (en_backflow e) x1 i2) in *. pose proof Sb as (Lb & Fb).
  rewrite !(split_cut _ sizes) by (rewrite ?reorder_length; assumption). cbn [bind_opt].
  rewrite (antisym_part_flips e _ _ _ (cut_flips sizes s bo K Lb)), (block_signs_prod sizes s K).
  destruct (antisym_part e (cut sizes bo)) as [a|]; [|reflexivity]. cbn [option_map bind_opt].
  rewrite (jastrow_invariant (en_jastrow e) (en_streams e) sizes s x i1 i2 r1 r2 x1 bo d1 d2); try assumption.
  destruct (jastrow_call _ _ _ _ _ _) as [v|]; reflexivity.
Qed.

(** ** Coincidence *)
Definition sound (p : slog) : Prop := fst p = Fin 0 -> snd p = MInf \/ snd p = NaN.
Lemma sound_value v : sound (array_to_slog v).
Proof.
  destruct v as [a| | |]; [|intros H; cbn in H; exfalso; revert H; try discriminate; try (intros H; injection H; lra)..]. rewrite to_slog_fin. unfold sound, slog_of. cbn [fst snd]. intros H. left.
  destruct (Req_EM_T a 0) as [->|Ne]; [reflexivity|]. exfalso. destruct (Rtotal_order a 0) as [T|[T|T]]; destruct (Rlt_dec 0 a), (Rlt_dec a 0); (lra || (injection H; lra)).
Qed.
Lemma sound_multiply p q : sound p -> sound q -> sound (slog_multiply p q).
Proof.
  unfold sound, slog_multiply. destruct p as (a, la), q as (b, lb). cbn [fst snd]. intros Hp Hq H.
  assert (Z : (a = Fin 0) \/ (b = Fin 0)).
  { destruct a as [a| | |], b as [b| | |]; cbn in H; try discriminate; unfold inf_of_sign in H; repeat destruct (Rlt_dec _ _); try discriminate.
    injection H as H. apply Rmult_integral in H. destruct H as [-> | ->]; [left|right]; reflexivity. }
  destruct Z as [->| ->].
  - destruct (Hp eq_refl) as [->| ->]; [|right; reflexivity]. destruct lb; cbn; auto.
  - destruct (Hq eq_refl) as [->| ->]; [|right; apply xadd_nan_r]. destruct la; cbn; auto.
Qed.
Lemma vanishing_sum l p : Forall (fun q => sound q /\ (fst q = Fin 0 \/ fst q = NaN)) l -> log_linear_exp l = Some p -> p = (NaN, NaN).
Proof.
  intros H E. destruct l as [|a l0] eqn:El; [discriminate E|]. rewrite <- El in *. rewrite log_linear_exp_spec in E. rewrite El in E at 1. cbv zeta in E. apply some_inj in E. subst p.
  set (mm := fold_right xmax MInf (map snd l)).
  assert (S : xsum (map (fun q => xmul (fst q) (xexp (xsub (snd q) mm))) l) = NaN); [|rewrite S; reflexivity].
  destruct (Exists_dec (fun q : slog => isnan (fst q) || isnan (snd q) = true) l) as [X|X].
  - intros q. destruct (isnan (fst q) || isnan (snd q)); [left; reflexivity|right; discriminate].
  - apply xsum_nan. apply Exists_exists in X. destruct X as (q & Hq & X). apply in_map_iff. exists q. split; [|exact Hq]. destruct q as (u, v). cbn [fst snd] in *.
    destruct u; cbn in X; try reflexivity; destruct v; cbn in X; try discriminate X; reflexivity.
  - assert (Z : forall q, In q l -> q = (Fin 0, MInf)).
    { intros q Hq. rewrite Forall_forall in H. destruct (H q Hq) as (Sq & [Eq|Eq]).
      - destruct (Sq Eq) as [Es|Es]; [destruct q; cbn in *; subst; reflexivity|]. exfalso. apply X. apply Exists_exists. exists q. split; [exact Hq|]. rewrite Es. apply orb_true_r.
      - exfalso. apply X. apply Exists_exists. exists q. split; [exact Hq|]. rewrite Eq. reflexivity. }
    assert (M : mm = MInf).
    { unfold mm. clear -Z. induction l as [|q l IH]; [reflexivity|]. cbn. rewrite IH by (intros; apply Z; right; assumption). rewrite (Z q (or_introl eq_refl)). cbn. try destruct (Rlt_dec 0 0); reflexivity. }
    apply xsum_nan. apply in_map_iff. exists a. assert (Ha : In a l) by (rewrite El; left; reflexivity). split; [|exact Ha]. rewrite (Z a Ha), M. cbn. reflexivity.
Qed.
Lemma reduce_sound L l : Forall (Forall sound) L -> reduce (zipw slog_multiply) L = Some l -> Forall sound l.
Proof.
  destruct L as [|a L]; [discriminate|]. intros H E. injection E as <-. inversion H as [|? ? H1 H2]; subst. clear H. revert a H1.
  induction H2 as [|b L Hb _ IH]; intros a Ha; cbn [fold_left]; [exact Ha|]. apply IH. revert b Hb. induction Ha as [|p a Hp _ IHa]; intros [|q b] Hb; try constructor.
  - inversion Hb; subst. apply sound_multiply; assumption.
  - inversion Hb; subst. apply IHa. assumption.
Qed.
Lemma explicit_coincide e sizes d x i j p : describes (en_split e) sizes -> built_for sizes (en_backflow e) -> ions_fit d (en_streams e) -> jastrow_built_for sizes (en_jastrow e) ->
  shape2 (list_sum sizes) d x -> coincide sizes x i j -> explicit_call e x = Some p ->
  match en_antisym e with
  | Factorized _ _ => p = (NaN, NaN)
  | Generic _ => p = (NaN, NaN) \/ exists J, p = (Fin 0, xadd MInf J)
  end.
Proof.
  intros D B Fi J Sx (Hi & Hj & Ne & Sp & Ex). pose proof Sx as (L & _). assert (K := exchange_keeps sizes i j Hi Hj Sp). assert (N : (0 < list_sum sizes)%nat) by lia.
  unfold explicit_call. pose proof (input_streams_equivariant (en_streams e) (exchange i j) x) as Q. rewrite (reorder_exchange_same x i j []) in Q by (rewrite ?L; assumption).
  destruct (compute_input_streams (en_streams e) x) as (((i1, i2), r1), r2) eqn:E. specialize (Q ltac:(rewrite L; apply K)). injection Q as Q1 Q2 _ _.
  destruct (streams_shape _ _ _ _ Sx Fi _ _ _ _ E) as (S1 & (d2 & S2) & S3 & _). assert (Q1' := f_equal rows_of_input Q1). rewrite rows_of_reorder in Q1'.
  destruct (rows_of_input i1) as [x1|]; [|discriminate]. destruct (S1 x1 eq_refl) as (d1 & Sx1). cbn [option_map bind_opt] in *. apply some_inj in Q1'. unfold check.
  destruct (backflow_ok (en_backflow e) (length x)); [|discriminate]. cbv zeta.
  pose proof (backflow_equivariant (en_backflow e) sizes (exchange i j) x1 i2 d1 d2 B K N Sx1 S2) as Qb. rewrite <- Q1', <- Q2 in Qb.
  destruct (backflow_shape (en_backflow e) sizes x1 i2 d1 d2 B Sx1 S2) as (d' & Sb). set (bo := backflow (en_backflow e) x1 i2) in *. pose proof Sb as (Lb & Fb).
  rewrite (split_cut _ sizes) by assumption. cbn [bind_opt].
  pose proof (cut_flips sizes (exchange i j) bo K Lb) as Fl. rewrite <- Qb in Fl. pose proof (block_signs_prod sizes (exchange i j) K) as Es. rewrite exchange_sign in Es by assumption.
  unfold antisym_part. destruct (en_antisym e) as [rank nets|net].
  - rewrite mapi_const. set (fns := map _ _). pose proof (factorized_slog_flips rank fns _ _ _ Fl) as Ff. rewrite Es in Ff.
    destruct (factorized_antisymmetrize_slog rank fns (cut sizes bo)) as [l|] eqn:El; [|discriminate]. cbn [option_map bind_opt] in *. apply some_inj in Ff.
    destruct (slog_sum_over_axis l) as [a|] eqn:Ea; [|discriminate]. cbn [bind_opt]. apply vanishing_sum in Ea.
    + subst a. destruct (jastrow_call _ _ _ _ _ _) as [v|]; [|discriminate]. cbn [bind_opt]. intros Ep. apply some_inj in Ep. subst p. reflexivity.
    + unfold factorized_antisymmetrize_slog in El. destruct (Nat.eqb _ _); [|discriminate]. apply reduce_sound in El.
      * apply Forall_forall. intros q Hq. split; [rewrite Forall_forall in El; apply El; exact Hq|]. apply (In_nth _ _ (signed (-1) (NaN, NaN))) in Hq. destruct Hq as (k & Hk & <-).
        apply own_opposite. apply (f_equal (fun l => nth k l (signed (-1) (NaN, NaN)))) in Ff. rewrite map_nth in Ff. apply (f_equal fst) in Ff.
        change (fst (signed (-1) (nth k l (NaN, NaN)))) with (sg (-1) (fst (nth k l (NaN, NaN)))) in Ff. rewrite (nth_indep l (NaN, NaN) (signed (-1) (NaN, NaN)) Hk) in Ff. exact Ff.
      * apply Forall_forall. intros v Hv. apply in_map_iff in Hv. destruct Hv as (w & <- & _). apply Forall_map, Forall_forall. intros ? _. apply sound_value.
  - cbn [bind_opt]. unfold generic_antisymmetrize_slog. pose proof (generic_flips 1 (run_resnet e net) _ _ _ Fl) as Ff. rewrite Es in Ff. apply own_opposite in Ff.
    destruct (jastrow_call _ _ _ _ _ _) as [v|]; [|discriminate]. cbn [bind_opt]. intros Ep. apply some_inj in Ep. subst p. destruct Ff as [-> | ->]; [right|left; reflexivity].
    exists v. rewrite to_slog_fin. unfold slog_of. destruct (Rlt_dec 0 0); [lra|]. destruct (Req_EM_T 0 0); [reflexivity|lra].
Qed.

(** ** Finite dense layers *)
Lemma oflips_len nd sgs O O' : oflips nd sgs O O' -> length O = length sgs.
Proof. induction 1; cbn; congruence. Qed.
Lemma dense_finite n k b x : (forall i f, isfin (k i f) = true) -> (forall c f, b = Some c -> isfin (c f) = true) -> fins x -> fins (dense n k b x).
Proof.
  intros Hk Hb Hx. unfold dense. apply Forall_map, Forall_forall. intros f _. cbv zeta.
  assert (W : isfin (weighted_sum (fun i => k i f) x) = true).
  { unfold weighted_sum. apply isfin_xsum. apply Forall_forall. intros v Hv. apply in_map_iff in Hv. destruct Hv as ((i, a) & <- & Hi). apply isfin_xmul; [|apply Hk].
    apply in_combine_r in Hi. unfold fins in Hx. rewrite Forall_forall in Hx. apply Hx. exact Hi. }
  destruct b as [c|]; [|exact W]. specialize (Hb c f eq_refl). destruct (weighted_sum _ x), (c f); try discriminate; reflexivity.
Qed.
Lemma zipw_add_finite (y x : list xr) : fins y -> fins x -> fins (map (fun p => xadd (fst p) (snd p)) (combine y x)).
Proof.
  intros Hy. revert x. induction Hy as [|a y Ha _ IH]; intros [|b x] Hx; try constructor; inversion Hx; subst; [|apply IH; assumption].
  cbn. destruct a, b; try discriminate; reflexivity.
Qed.
