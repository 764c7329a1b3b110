(** * Norm constraints, the Fisher operators and conjugate gradients *)
From Coq Require Import Reals List Arith Lia Lra.
From Verif Require Import XReal Rsum M_optim S_optim P_optim1.
Import ListNotations.
Local Open Scope R_scope.

(** ** The coefficient of the norm constraints *)
Lemma coefficient_ok c q : 0 < c -> 0 <= q ->
  exists t, norm_coefficient c q = Fin t /\ 0 < t <= 1 /\ t ^ 2 * q <= c /\ (q <= c -> t = 1) /\ (c < q -> t ^ 2 * q = c).
Proof.
  intros Hc Hq. unfold norm_coefficient.
  destruct (Req_dec q 0) as [E|E].
  - subst q. cbn. unfold inf_of_sign. destruct (Req_EM_T 0 0); [|lra]. destruct (Rlt_dec 0 c); [|lra]. cbn.
    exists 1. repeat split; try lra; intros; lra.
  - rewrite xdiv_fin by assumption.
    assert (P : 0 < c / q) by (apply Rdiv_lt_0_compat; lra).
    rewrite xsqrt_fin by lra. unfold xmin. cbn. unfold Rltb.
    assert (Sq : sqrt (c / q) * sqrt (c / q) = c / q) by (apply sqrt_sqrt; lra).
    pose proof (sqrt_lt_R0 _ P) as Sp.
    destruct (Rlt_dec 1 (sqrt (c / q))) as [L|L].
    + assert (q < c).
      { assert (1 < c / q) by nra. assert (c / q * q = c) by (field; lra). nra. }
      exists 1. repeat split; try lra; intros; lra.
    + exists (sqrt (c / q)).
      assert (Eq : sqrt (c / q) ^ 2 * q = c) by (replace (sqrt (c / q) ^ 2) with (sqrt (c / q) * sqrt (c / q)) by ring; rewrite Sq; field; lra).
      repeat split; try lra.
      intros H. assert (1 <= c / q) by (apply (Rmult_le_reg_r q); [lra|]; replace (c / q * q) with c by (field; lra); lra).
      assert (1 <= sqrt (c / q)); [|lra]. rewrite <- sqrt_1. apply sqrt_le_1_alt. assumption.
Qed.

Lemma coefficient_nan c q : 0 < c -> q < 0 -> norm_coefficient c q = NaN.
Proof.
  intros Hc Hq. unfold norm_coefficient. rewrite xdiv_fin by lra.
  assert (c / q < 0).
  { unfold Rdiv. assert (/ q < 0) by (apply Rinv_lt_0_compat; lra). nra. }
  cbn. destruct (Rlt_dec (c / q) 0); [reflexivity|lra].
Qed.

Lemma inner_scaled n t u v : inner n (fun k => t * u k) (fun k => t * v k) = t ^ 2 * inner n u v.
Proof. rewrite inner_scal_l, inner_scal_r. ring. Qed.

Lemma lmean_scal {A} c (f : A -> R) l : lmean (map (fun x => c * f x) l) = c * lmean (map f l).
Proof. unfold lmean. rewrite lsum_map_scal, !map_length. unfold Rdiv. ring. Qed.
Lemma lmean_nonneg l : (forall x, In x l -> 0 <= x) -> 0 <= lmean l.
Proof.
  intros H. unfold lmean. destruct l as [|a l]; [cbn; unfold Rdiv; lra|].
  apply Rmult_le_pos; [apply lsum_nonneg; exact H|]. left. apply Rinv_0_lt_compat, lt_0_INR. cbn. lia.
Qed.

(** ** Averages over walkers *)
Definition Ew (W : list rvec) (f : rvec -> R) : R := avg_list (map f W).
Lemma Ew_ext W f f' : (forall g, In g W -> f g = f' g) -> Ew W f = Ew W f'.
Proof. intros H. unfold Ew. f_equal. apply map_ext_in. exact H. Qed.
Lemma Ew_add W f f' : Ew W (fun g => f g + f' g) = Ew W f + Ew W f'.
Proof. unfold Ew, avg_list. rewrite lsum_map_plus, !map_length. unfold Rdiv. ring. Qed.
Lemma Ew_sub W f f' : Ew W (fun g => f g - f' g) = Ew W f - Ew W f'.
Proof. unfold Ew, avg_list. rewrite lsum_map_minus, !map_length. unfold Rdiv. ring. Qed.
Lemma Ew_scal W c f : Ew W (fun g => c * f g) = c * Ew W f.
Proof. unfold Ew, avg_list. rewrite lsum_map_scal, !map_length. unfold Rdiv. ring. Qed.
Lemma Ew_const W c : W <> [] -> Ew W (fun _ => c) = c.
Proof.
  intros H. unfold Ew, avg_list. rewrite lsum_map_const, map_length. field. apply not_0_INR. destruct W; [congruence|discriminate].
Qed.
Lemma Ew_Rsum W n (f : nat -> rvec -> R) : Ew W (fun g => Rsum n (fun l => f l g)) = Rsum n (fun l => Ew W (f l)).
Proof.
  induction n as [|n IH]; cbn [Rsum].
  - unfold Ew, avg_list. rewrite lsum_map_const, map_length. unfold Rdiv. ring.
  - rewrite Ew_add, IH. reflexivity.
Qed.
Lemma Ew_nonneg W f : (forall g, 0 <= f g) -> 0 <= Ew W f.
Proof.
  intros H. change (0 <= lmean (map f W)). apply lmean_nonneg. intros x Hx. apply in_map_iff in Hx. destruct Hx as (g & <- & _). apply H.
Qed.

Lemma covariance_Ew W k l : covariance W k l = Ew W (fun g => (g k - Ew W (fun h => h k)) * (g l - Ew W (fun h => h l))).
Proof. reflexivity. Qed.

(** The covariance matrix times a vector. *)
Lemma cov_apply W np x k : W <> [] ->
  Rsum np (fun l => covariance W k l * x l) = Ew W (fun g => (inner np g x - Ew W (fun h => inner np h x)) * g k).
Proof.
  intros HW.
  assert (Em : Ew W (fun h => inner np h x) = Rsum np (fun l => Ew W (fun h => h l) * x l)).
  { unfold inner. rewrite Ew_Rsum. apply Rsum_ext; intros l _.
    rewrite (Ew_ext W _ (fun h => x l * h l)) by (intros; ring). rewrite Ew_scal. ring. }
  rewrite (Rsum_ext np _ (fun l => Ew W (fun g => x l * ((g k - Ew W (fun h => h k)) * (g l - Ew W (fun h => h l)))))).
  2:{ intros l _. rewrite covariance_Ew, Ew_scal. ring. }
  rewrite <- Ew_Rsum.
  rewrite (Ew_ext W _ (fun g => (inner np g x - Ew W (fun h => inner np h x)) * g k
                               - Ew W (fun h => h k) * (inner np g x - Ew W (fun h => inner np h x)))).
  2:{ intros g _. rewrite Em. unfold inner. rewrite <- Rsum_minus.
      rewrite (Rsum_ext np _ (fun l => (g k - Ew W (fun h => h k)) * (g l * x l - Ew W (fun h => h l) * x l))) by (intros; ring).
      rewrite Rsum_scal. ring. }
  rewrite Ew_sub, Ew_scal, Ew_sub, Ew_const by assumption. ring.
Qed.

(** ** Sharded averages *)
Lemma mean_shards {A} (f : A -> R) m (shards : list (list A)) : (0 < m)%nat -> shards <> [] ->
  (forall s, In s shards -> length s = m) ->
  lmean (map (fun s => lsum (map f s) / INR (length s)) shards) = avg_list (map f (concat shards)).
Proof.
  intros Hm Hs H. unfold lmean, avg_list.
  assert (L : length (concat shards) = (m * length shards)%nat).
  { clear Hs. induction shards as [|s l IH]; [cbn; lia|]. cbn [concat]. rewrite app_length, IH by (intros; apply H; right; assumption).
    rewrite (H s) by (left; reflexivity). cbn [length]. lia. }
  rewrite !map_length, L, mult_INR.
  assert (E : lsum (map (fun s => lsum (map f s) / INR (length s)) shards) = / INR m * lsum (map f (concat shards))).
  { clear Hs L. induction shards as [|s l IH]; [cbn; ring|]. cbn [map concat]. rewrite map_app, lsum_app.
    cbn [lsum fold_right]. fold (lsum (map (fun s => lsum (map f s) / INR (length s)) l)).
    rewrite IH by (intros; apply H; right; assumption). rewrite (H s) by (left; reflexivity). unfold Rdiv. ring. }
  rewrite E. field. split; apply not_0_INR; [destruct shards; [congruence|discriminate] | lia].
Qed.

Lemma combine_map_r {A B} (h : A -> B) l : combine l (map h l) = map (fun x => (x, h x)) l.
Proof. induction l as [|a l IH]; cbn; [|rewrite IH]; reflexivity. Qed.

Section Shards.
  Variables (np m : nat) (damping : R) (shards : list (list rvec)).
  Hypothesis Hm : (0 < m)%nat.
  Hypothesis Hs : shards <> [].
  Hypothesis Hl : forall s, In s shards -> length s = m.
  Let W := concat shards.

  Lemma W_nonempty : W <> [].
  Proof.
    unfold W. destruct shards as [|s l]; [congruence|]. intros E. cbn in E. apply app_eq_nil in E. destruct E as [E _].
    assert (length s = m) by (apply Hl; left; reflexivity). subst s. cbn in H. lia.
  Qed.

  Lemma mean_walkers (f : rvec -> R) : mean_over_walkers (map (map f) shards) = Ew W f.
  Proof.
    unfold mean_over_walkers. rewrite map_map. unfold Ew, W. rewrite <- (mean_shards f m) by assumption.
    f_equal. apply map_ext. intros s. unfold lmean. rewrite map_length. reflexivity.
  Qed.

  Lemma lazy_is_fisher x k : lazy_fisher_apply np damping shards x k = fisher np damping W x k.
  Proof.
    unfold lazy_fisher_apply, fisher. rewrite cov_apply by apply W_nonempty. rewrite mean_walkers.
    f_equal. rewrite (map_map (map (fun g => inner np g x))), combine_map_r, map_map.
    set (mu := Ew W (fun g => inner np g x)).
    change (Ew W (fun g => (inner np g x - mu) * g k)) with (avg_list (map (fun g => (inner np g x - mu) * g k) (concat shards))).
    rewrite <- (mean_shards _ m) by assumption. f_equal. apply map_ext. intros s. cbn [fst snd].
    rewrite map_map, combine_map_r, map_map. cbn [fst snd]. unfold Rdiv. ring.
  Qed.

  Lemma debug_is_fisher x k : debug_fisher_apply np damping shards x k = fisher np damping W x k.
  Proof.
    unfold debug_fisher_apply, fisher. f_equal.
    rewrite map_map.
    assert (E : forall j, mean_over_walkers (map (map (fun g : rvec => g j)) shards) = Ew W (fun g => g j)) by (intros; apply (mean_walkers (fun g => g j))).
    rewrite (map_ext _ (fun s => lsum (map (fun g => (g k - Ew W (fun h => h k)) * inner np (fun j => g j - Ew W (fun h => h j)) x) s) / INR (length s))).
    2:{ intros s. rewrite map_map, map_length. f_equal. f_equal. apply map_ext. intros g. rewrite E. f_equal.
        apply inner_ext; intros j _; [rewrite E|]; reflexivity. }
    rewrite (mean_shards (fun g => (g k - Ew W (fun h => h k)) * inner np (fun j => g j - Ew W (fun h => h j)) x) m) by assumption.
    fold W. fold (Ew W (fun g => (g k - Ew W (fun h => h k)) * inner np (fun j => g j - Ew W (fun h => h j)) x)).
    rewrite (Rsum_ext np (fun l => covariance W k l * x l)
      (fun l => Ew W (fun g => x l * ((g k - Ew W (fun h => h k)) * (g l - Ew W (fun h => h l)))))) by (intros l _; rewrite Ew_scal, covariance_Ew; ring).
    rewrite <- Ew_Rsum. apply Ew_ext. intros g _. unfold inner. rewrite <- Rsum_scal. apply Rsum_ext; intros; ring.
  Qed.
End Shards.

(** ** The damped covariance matrix *)
Definition fisher_matrix (damping : R) (W : list rvec) : rmat := fun k l => covariance W k l + damping * eye_r k l.
Lemma fisher_matvec np damping W x k : (k < np)%nat -> fisher np damping W x k = matvec np (fisher_matrix damping W) x k.
Proof.
  intros Hk. unfold fisher, matvec, fisher_matrix.
  rewrite (Rsum_ext np (fun j => (covariance W k j + damping * eye_r k j) * x j) (fun j => covariance W k j * x j + damping * (eye_r k j * x j))) by (intros; ring).
  rewrite Rsum_plus, Rsum_scal, eye_sum by assumption. reflexivity.
Qed.
Lemma fisher_symm np damping W : symm np (fisher_matrix damping W).
Proof.
  intros k l _ _. unfold fisher_matrix. f_equal.
  - rewrite !covariance_Ew. apply Ew_ext. intros; ring.
  - unfold eye_r. rewrite Nat.eqb_sym. reflexivity.
Qed.
Lemma fisher_form np damping W x :
  inner np x (fisher np damping W x) = Ew W (fun g => (Rsum np (fun k => (g k - Ew W (fun h => h k)) * x k)) ^ 2) + damping * inner np x x.
Proof.
  unfold fisher. rewrite inner_add_r, inner_scal_r. f_equal. unfold inner.
  rewrite (Rsum_ext np _ (fun k => Rsum np (fun l => Ew W (fun g => x k * x l * ((g k - Ew W (fun h => h k)) * (g l - Ew W (fun h => h l))))))).
  2:{ intros k _. rewrite <- Rsum_scal. apply Rsum_ext; intros l _. rewrite Ew_scal, covariance_Ew. ring. }
  rewrite (Rsum_ext np _ (fun k => Ew W (fun g => Rsum np (fun l => x k * x l * ((g k - Ew W (fun h => h k)) * (g l - Ew W (fun h => h l)))))))
    by (intros; rewrite Ew_Rsum; reflexivity).
  rewrite <- Ew_Rsum. apply Ew_ext. intros g _.
  replace (Rsum np (fun k => (g k - Ew W (fun h => h k)) * x k) ^ 2) with
    (Rsum np (fun k => (g k - Ew W (fun h => h k)) * x k) * Rsum np (fun k => (g k - Ew W (fun h => h k)) * x k)) by ring.
  rewrite <- Rsum_scal_r. apply Rsum_ext; intros k _. rewrite <- Rsum_scal. apply Rsum_ext; intros; ring.
Qed.
Lemma fisher_lower np damping W x : damping * inner np x x <= inner np x (fisher np damping W x).
Proof.
  rewrite fisher_form. pose proof (Ew_nonneg W (fun g => (Rsum np (fun k => (g k - Ew W (fun h => h k)) * x k)) ^ 2) ltac:(intros; apply pow2_ge_0)). lra.
Qed.
Lemma fisher_posdef np damping W : 0 < damping -> posdef np (fisher_matrix damping W).
Proof.
  intros Hd x Hx. rewrite (inner_ext np x x _ (fisher np damping W x)) by first [intros k Hk; symmetry; apply fisher_matvec; exact Hk | intros k Hk; reflexivity].
  pose proof (fisher_lower np damping W x). pose proof (inner_pos np x Hx). nra.
Qed.

(** Existence and uniqueness for any positive definite system. *)
Lemma posdef_unique n A x y : posdef n A -> agree n (matvec n A x) (matvec n A y) -> agree n x y.
Proof.
  intros Pd H k Hk. destruct (Req_dec (x k) (y k)) as [E|E]; [exact E|]. exfalso.
  assert (P : 0 < inner n (fun k => x k - y k) (matvec n A (fun k => x k - y k))) by (apply Pd; exists k; split; [exact Hk | lra]).
  rewrite (inner_ext n _ (fun k => x k - y k) _ (fun _ => 0)) in P.
  - unfold inner in P. rewrite Rsum_eq_0 in P by (intros; ring). lra.
  - intros i _; reflexivity.
  - intros i Hi. rewrite matvec_sub, H by assumption. ring.
Qed.

(** ** Bessel: at most n orthogonal non-zero vectors in dimension n *)
Lemma bessel n m (v : nat -> rvec) j : (j < n)%nat ->
  (forall i, (i < m)%nat -> 0 < inner n (v i) (v i)) ->
  (forall i l, (i < m)%nat -> (l < m)%nat -> i <> l -> inner n (v i) (v l) = 0) ->
  Rsum m (fun i => v i j ^ 2 / inner n (v i) (v i)) <= 1.
Proof.
  intros Hj Hp Ho.
  pose (c := fun i => v i j / inner n (v i) (v i)).
  pose (e := fun k => eye_r j k).
  pose (w := fun k => Rsum m (fun i => c i * v i k)).
  assert (Iw : forall u, inner n u w = Rsum m (fun i => c i * inner n u (v i))).
  { intros u. unfold inner, w. rewrite (Rsum_ext n _ (fun k => Rsum m (fun i => c i * (u k * v i k))))
      by (intros; rewrite <- Rsum_scal; apply Rsum_ext; intros; ring).
    rewrite Rsum_swap. apply Rsum_ext; intros. rewrite Rsum_scal. reflexivity. }
  assert (Ee : forall u, inner n e u = u j) by (intros u; unfold inner, e; apply eye_sum; exact Hj).
  assert (Eew : inner n e w = Rsum m (fun i => v i j ^ 2 / inner n (v i) (v i))).
  { rewrite Iw. apply Rsum_ext; intros i Hi. rewrite Ee. unfold c. field. specialize (Hp i Hi). lra. }
  assert (Eww : inner n w w = Rsum m (fun i => v i j ^ 2 / inner n (v i) (v i))).
  { rewrite Iw. apply Rsum_ext; intros i Hi. rewrite inner_sym, Iw, (Rsum_single m i); [|exact Hi|].
    - unfold c. field. specialize (Hp i Hi). lra.
    - intros l Hl Hne. rewrite Ho by (try assumption; congruence). ring. }
  assert (E1 : inner n e e = 1) by (rewrite Ee; unfold e, eye_r; rewrite Nat.eqb_refl; reflexivity).
  pose proof (inner_nonneg n (fun k => e k - w k)) as N.
  rewrite inner_sub_r, !inner_sub_l, (inner_sym n w e) in N. lra.
Qed.

Lemma orthogonal_count n m (v : nat -> rvec) :
  (forall i, (i < m)%nat -> 0 < inner n (v i) (v i)) ->
  (forall i l, (i < m)%nat -> (l < m)%nat -> i <> l -> inner n (v i) (v l) = 0) -> (m <= n)%nat.
Proof.
  intros Hp Ho.
  assert (L : Rsum n (fun j => Rsum m (fun i => v i j ^ 2 / inner n (v i) (v i))) <= Rsum n (fun _ => 1)).
  { apply Rsum_le. intros j Hj. apply (bessel n m v j Hj Hp Ho). }
  rewrite Rsum_swap, (Rsum_ext m _ (fun _ => 1)), !Rsum_const, !Rmult_1_r in L.
  - apply INR_le. exact L.
  - intros i Hi. rewrite (Rsum_ext n _ (fun j => v i j * v i j * / inner n (v i) (v i))) by (intros; unfold Rdiv; ring).
    rewrite Rsum_scal_r. fold (inner n (v i) (v i)). specialize (Hp i Hi). field. lra.
Qed.

(** ** Conjugate gradients *)
Section CG.
  Variables (n : nat) (A : rvec -> rvec) (M : rmat) (b x0 : rvec).
  Hypothesis HA : forall x, agree n (A x) (matvec n M x).
  Hypothesis HS : symm n M.
  Hypothesis HP : posdef n M.

  Fixpoint cg_run (k : nat) (s : cg_state) : cg_state := match k with O => s | S k => cg_body n A (cg_run k s) end.
  Lemma cg_run_S k s : cg_run k (cg_body n A s) = cg_run (S k) s.
  Proof. induction k as [|k IH]; cbn in *; [|rewrite IH]; reflexivity. Qed.

  Lemma A_self u v : inner n u (A v) = inner n (A u) v.
  Proof.
    rewrite (inner_ext n u u (A v) (matvec n M v)), (inner_ext n (A u) (matvec n M u) v v); try apply HA; try (intros k _; reflexivity).
    unfold inner, matvec.
    rewrite (Rsum_ext n _ (fun i => Rsum n (fun j => u i * (M i j * v j)))) by (intros; rewrite Rsum_scal; reflexivity).
    rewrite Rsum_swap. apply Rsum_ext; intros j Hj. rewrite <- Rsum_scal_r. apply Rsum_ext; intros i Hi. rewrite (HS i j) by assumption. ring.
  Qed.
  Lemma A_pos u : 0 < inner n u u -> 0 < inner n u (A u).
  Proof.
    intros H. rewrite (inner_ext n u u (A u) (matvec n M u)); [|intros k _; reflexivity | apply HA].
    apply HP. destruct (Rlt_dec 0 (inner n u u)); [|lra].
    destruct (le_lt_dec n 0) as [Z|_]; [assert (n = O) by lia; unfold inner in H; rewrite H0 in H; cbn in H; lra|].
    apply Classical_Prop.NNPP. intros C. assert (inner n u u = 0); [|lra].
    unfold inner. apply Rsum_eq_0. intros i Hi. destruct (Req_dec (u i) 0) as [E|E]; [rewrite E; ring|]. exfalso. apply C. eauto.
  Qed.

  Let s0 := cg_init n A b x0.
  Let r k := cg_r (cg_run k s0).
  Let p k := cg_p (cg_run k s0).
  Let gam k := cg_gamma (cg_run k s0).
  Let al k := gam k / inner n (p k) (A (p k)).

  Lemma gam_eq k : gam k = inner n (r k) (r k).
  Proof. destruct k; reflexivity. Qed.
  Lemma r_S k : forall i, r (S k) i = r k i - al k * A (p k) i.
  Proof. reflexivity. Qed.
  Lemma p_S k : forall i, p (S k) i = r (S k) i + gam (S k) / gam k * p k i.
  Proof. reflexivity. Qed.

  Definition cgP (k : nat) : Prop :=
    (forall i, (i < k)%nat -> inner n (r k) (r i) = 0) /\ (forall i, (i < k)%nat -> inner n (r k) (p i) = 0) /\
    (forall i, (i < k)%nat -> inner n (p k) (A (p i)) = 0) /\ inner n (r k) (p k) = gam k.

  Lemma p_nonzero k : cgP k -> gam k <> 0 -> 0 < inner n (p k) (A (p k)).
  Proof.
    intros (_ & _ & _ & H) G. apply A_pos. destruct (Rle_lt_or_eq_dec _ _ (inner_nonneg n (p k))) as [L|E]; [exact L|].
    exfalso. apply G. rewrite <- H. unfold inner. apply Rsum_eq_0. intros i Hi.
    pose proof (inner_zero n (p k) (eq_sym E) i Hi) as Z. cbv beta in Z. rewrite Z. ring.
  Qed.

  Lemma cg_invariant k : (forall i, (i < k)%nat -> gam i <> 0) -> forall i, (i <= k)%nat -> cgP i.
  Proof.
    induction k as [|k IH]; intros G i Hi.
    - assert (i = O) by lia. subst i. unfold cgP. repeat split; try (intros; lia).
    - assert (IHk : forall i, (i <= k)%nat -> cgP i) by (apply IH; intros; apply G; lia).
      destruct (le_lt_dec i k) as [L|L]; [apply IHk; exact L|]. assert (i = S k) by lia. subst i. clear Hi L.
      destruct (IHk k ltac:(lia)) as (Ha & Hd & Hb & Hc).
      pose proof (fun i (H : (i <= k)%nat) => p_nonzero i (IHk i H) (G i ltac:(lia))) as Pos.
      assert (AL : forall i, (i <= k)%nat -> al i <> 0).
      { intros i H E. specialize (Pos i H). specialize (G i ltac:(lia)). unfold al in E.
        apply G. replace (gam i) with (gam i / inner n (p i) (A (p i)) * inner n (p i) (A (p i))) by (field; lra). rewrite E. ring. }
      assert (D : forall i, (i < S k)%nat -> inner n (r (S k)) (p i) = 0).
      { intros i Hi. rewrite (inner_ext n _ (fun j => r k j - al k * A (p k) j) _ (p i)) by (intros j _; reflexivity).
        rewrite inner_sub_l, inner_scal_l.
        destruct (Nat.eq_dec i k) as [->|Hne].
        - rewrite Hc, <- A_self. unfold al. specialize (Pos k ltac:(lia)). field. lra.
        - rewrite Hd, <- A_self, Hb by lia. ring. }
      assert (Aa : forall i, (i < S k)%nat -> inner n (r (S k)) (r i) = 0).
      { intros i Hi. destruct i as [|i].
        - change (r O) with (p O). apply D. lia.
        - rewrite (inner_ext n _ (r (S k)) (r (S i)) (fun j => p (S i) j - gam (S i) / gam i * p i j))
            by first [intros j _; rewrite p_S; ring | intros j _; reflexivity].
          rewrite inner_sub_r, inner_scal_r, !D by lia. ring. }
      assert (AP : forall i u, (i <= k)%nat -> inner n u (A (p i)) = (inner n u (r i) - inner n u (r (S i))) / al i).
      { intros i u H. specialize (AL i H).
        rewrite (inner_ext n u u (r (S i)) (fun j => r i j - al i * A (p i) j)) by (intros j _; reflexivity).
        rewrite inner_sub_r, inner_scal_r. field. exact AL. }
      assert (Bb : forall i, (i < S k)%nat -> inner n (p (S k)) (A (p i)) = 0).
      { intros i Hi. rewrite (inner_ext n (p (S k)) (fun j => r (S k) j + gam (S k) / gam k * p k j) _ (A (p i))) by (intros j _; reflexivity).
        rewrite inner_add_l, inner_scal_l.
        destruct (Nat.eq_dec i k) as [->|Hne].
        - rewrite (AP k (r (S k))) by lia. rewrite Aa by lia. rewrite <- gam_eq. unfold al.
          specialize (Pos k ltac:(lia)). specialize (G k ltac:(lia)). field. split; lra.
        - rewrite Hb by lia. rewrite AP by lia. rewrite !Aa by lia. unfold Rdiv. ring. }
      unfold cgP. repeat split; try assumption.
      rewrite (inner_ext n _ (r (S k)) (p (S k)) (fun j => r (S k) j + gam (S k) / gam k * p k j)) by (intros j _; reflexivity).
      rewrite inner_add_r, inner_scal_r, D, <- gam_eq by lia. ring.
  Qed.

  Lemma cg_stops : exists k, (k <= n)%nat /\ gam k = 0.
  Proof.
    apply Classical_Prop.NNPP. intros C.
    assert (G : forall k, (k <= n)%nat -> gam k <> 0) by (intros k Hk E; apply C; eauto).
    assert (I : forall i, (i <= n)%nat -> cgP i) by (apply cg_invariant; intros; apply G; lia).
    assert (L : (S n <= n)%nat); [|lia].
    apply (orthogonal_count n (S n) r).
    - intros i Hi. pose proof (inner_nonneg n (r i)). specialize (G i ltac:(lia)). rewrite gam_eq in G. lra.
    - intros i l Hi Hl Hne. destruct (lt_eq_lt_dec i l) as [[L|L]|L]; [|congruence|].
      + rewrite inner_sym. apply (I l); lia.
      + apply (I i); lia.
  Qed.

  (** The recurred residual is the true residual. *)
  Lemma true_residual k : agree n (r k) (fun i => b i - A (cg_x (cg_run k s0)) i).
  Proof.
    induction k as [|k IH]; intros i Hi; [reflexivity|].
    rewrite r_S, IH by assumption. cbn [cg_run cg_body cg_x]. fold (p k). fold (gam k).
    rewrite !HA by assumption. change (gam k / inner n (p k) (A (p k))) with (al k).
    rewrite (matvec_add n M (cg_x (cg_run k s0)) (fun k1 => al k * p k k1)), matvec_scal. ring.
  Qed.

  Lemma loop_run atol fuel s : exists j, (j <= fuel)%nat /\ cg_loop n A atol fuel s = cg_run j s /\
    (j = fuel \/ cg_gamma (cg_run j s) <= atol) /\ (forall i, (i < j)%nat -> atol < cg_gamma (cg_run i s)).
  Proof.
    revert s. induction fuel as [|f IH]; intros s; cbn [cg_loop].
    - exists O. repeat split; try lia; auto.
    - destruct (Rlt_dec atol (cg_gamma s)) as [L|L].
      + destruct (IH (cg_body n A s)) as (j & Hj & E & Hs & Hi). exists (S j). rewrite E, cg_run_S.
        repeat split; [lia| |].
        * destruct Hs as [->|Hs]; [left; reflexivity | right; rewrite cg_run_S in Hs; exact Hs].
        * intros [|i] H; [exact L|]. rewrite <- cg_run_S. apply Hi. lia.
      + exists O. repeat split; try lia. right. cbn. lra.
  Qed.

  Lemma cg_accurate maxiter : (match maxiter with Some m => n <= m | None => True end)%nat ->
    let x := cg n A b x0 maxiter in
    inner n (fun i => b i - A x i) (fun i => b i - A x i) <= cg_tol2 * inner n b b.
  Proof.
    intros Hm x. subst x. unfold cg. set (fuel := match maxiter with Some m => m | None => (10 * n)%nat end).
    assert (Hf : (n <= fuel)%nat) by (unfold fuel; destruct maxiter; lia).
    fold s0. destruct (loop_run (cg_tol2 * inner n b b) fuel s0) as (j & Hj & E & Hs & Hi). rewrite E.
    assert (At : 0 <= cg_tol2 * inner n b b).
    { apply Rmult_le_pos; [unfold cg_tol2; apply pow2_ge_0 | apply inner_nonneg]. }
    rewrite (inner_ext n _ (r j) _ (r j)) by (intros i Hin; symmetry; apply true_residual; exact Hin).
    rewrite <- gam_eq. destruct Hs as [Hs|Hs]; [|exact Hs].
    destruct (Rle_lt_dec (gam j) (cg_tol2 * inner n b b)) as [L|L]; [exact L|]. exfalso.
    destruct cg_stops as (k & Hk & Z).
    assert (k <= j)%nat by lia. destruct (Nat.eq_dec k j) as [->|Hne]; [lra|].
    specialize (Hi k ltac:(lia)). fold (gam k) in Hi. lra.
  Qed.

  (** Every step reduces the error in the norm of the operator. *)
  Definition err (xs : rvec) (k : nat) : rvec := fun i => cg_x (cg_run k s0) i - xs i.
  Lemma err_step xs k : agree n (A xs) b -> cgP k -> gam k <> 0 ->
    inner n (err xs (S k)) (A (err xs (S k))) <= inner n (err xs k) (A (err xs k)).
  Proof.
    intros Hx Ck G. pose proof (p_nonzero k Ck G) as Pp. destruct Ck as (_ & _ & _ & Hc).
    assert (Ae : agree n (A (err xs k)) (fun i => - r k i)).
    { intros i Hi. rewrite true_residual by assumption. rewrite HA by assumption. unfold err. rewrite matvec_sub, <- !HA by assumption.
      rewrite Hx by assumption. ring. }
    assert (Es : agree n (err xs (S k)) (fun i => err xs k i + al k * p k i)).
    { intros i Hi. unfold err. cbn [cg_run cg_body cg_x]. fold (p k). fold (gam k). change (gam k / inner n (p k) (A (p k))) with (al k). ring. }
    assert (As : agree n (A (err xs (S k))) (fun i => A (err xs k) i + al k * A (p k) i)).
    { intros i Hi. rewrite !HA by assumption. rewrite (matvec_ext n M _ _ Es).
      rewrite (matvec_add n M (err xs k) (fun k1 => al k * p k k1)), matvec_scal. reflexivity. }
    rewrite (inner_ext n _ _ _ _ Es As). rewrite inner_add_r, !inner_add_l, !inner_scal_r, !inner_scal_l.
    rewrite (A_self (err xs k) (p k)), (inner_sym n (A (err xs k)) (p k)).
    assert (Ep : inner n (p k) (A (err xs k)) = - gam k).
    { rewrite (inner_ext n (p k) (p k) (A (err xs k)) (fun i => -1 * r k i)); [|intros j _; reflexivity | intros j Hj; rewrite Ae by assumption; ring].
      rewrite inner_scal_r, inner_sym, Hc. ring. }
    rewrite Ep.
    assert (Eg : al k * inner n (p k) (A (p k)) = gam k) by (unfold al; field; lra).
    assert (0 <= al k * gam k).
    { unfold al, Rdiv. pose proof (Rinv_0_lt_compat _ Pp). pose proof (pow2_ge_0 (gam k)). nra. }
    rewrite Eg. lra.
  Qed.
  Lemma cg_error maxiter xs : agree n (A xs) b ->
    let x := cg n A b x0 maxiter in
    inner n (fun i => x i - xs i) (A (fun i => x i - xs i)) <= inner n (fun i => x0 i - xs i) (A (fun i => x0 i - xs i)).
  Proof.
    intros Hx x. subst x. unfold cg. fold s0.
    destruct (loop_run (cg_tol2 * inner n b b) (match maxiter with Some m => m | None => (10 * n)%nat end) s0) as (j & Hj & E & Hs & Hi).
    rewrite E. change (inner n (err xs j) (A (err xs j)) <= inner n (err xs 0) (A (err xs 0))).
    assert (At : 0 <= cg_tol2 * inner n b b).
    { apply Rmult_le_pos; [unfold cg_tol2; apply pow2_ge_0 | apply inner_nonneg]. }
    assert (G : forall i, (i < j)%nat -> gam i <> 0) by (intros i H; specialize (Hi i H); fold (gam i) in Hi; lra).
    pose proof (cg_invariant j G) as I. clear E Hs Hj Hi.
    induction j as [|j IH]; [lra|].
    eapply Rle_trans; [apply err_step; [exact Hx | apply I; lia | apply G; lia]|].
    apply IH; intros; [apply G | apply I]; lia.
  Qed.
End CG.
