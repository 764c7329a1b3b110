(** * Proofs about sign-log arithmetic and log-domain dense layers (C51, C52) *)
From Coq Require Import Reals List Bool Arith Lra Lia.
From Verif Require Import XReal Rsum M_slog S_physics P_xsum M_stats P_stats.
Import ListNotations.
Local Open Scope R_scope.

Lemma to_slog_fin v : array_to_slog (Fin v) = slog_of v.
Proof.
  unfold array_to_slog, slog_of, xsign, xabs, xlog. destruct (Rlt_dec 0 v) as [H|H].
  - destruct (Rlt_dec v 0); [lra|]. destruct (Req_EM_T v 0); [lra|]. destruct (Rlt_dec 0 (Rabs v)) as [_|N]; [reflexivity|].
    exfalso; apply N. apply Rabs_pos_lt. lra.
  - destruct (Rlt_dec v 0) as [L|L].
    + destruct (Req_EM_T v 0); [lra|]. destruct (Rlt_dec 0 (Rabs v)) as [_|N]; [f_equal; f_equal; lra|].
      exfalso; apply N. apply Rabs_pos_lt. lra.
    + assert (v = 0) as -> by lra. rewrite Rabs_R0. destruct (Rlt_dec 0 0); [lra|]. destruct (Req_EM_T 0 0); [reflexivity|lra].
Qed.

Lemma from_slog_of v : array_from_slog (slog_of v) = Fin v.
Proof.
  unfold array_from_slog, slog_of; cbn [fst snd]. destruct (Req_EM_T v 0) as [->|N].
  - simpl. f_equal. ring.
  - cbn [xexp xmul]. f_equal. rewrite exp_ln by (apply Rabs_pos_lt; exact N).
    destruct (Rlt_dec v 0); [rewrite Rabs_left by lra; ring|]. destruct (Rlt_dec 0 v); [rewrite Rabs_right by lra; ring|lra].
Qed.

Lemma roundtrip x : array_from_slog (array_to_slog x) = x.
Proof.
  destruct x; [rewrite to_slog_fin; apply from_slog_of| | |reflexivity];
    unfold array_from_slog, array_to_slog; simpl; unfold inf_of_sign.
  - destruct (Rlt_dec 0 1); [reflexivity|lra].
  - destruct (Rlt_dec 0 (-1)); [lra|]. destruct (Rlt_dec (-1) 0); [reflexivity|lra].
Qed.

Lemma slog_multiply_of x y : slog_multiply (slog_of x) (slog_of y) = slog_of (x * y).
Proof.
  unfold slog_multiply, slog_of; cbn [fst snd]. f_equal.
  - cbn [xmul]. f_equal.
    destruct (Rtotal_order x 0) as [Hx|[->|Hx]], (Rtotal_order y 0) as [Hy|[->|Hy]]; rewrite ?Rmult_0_l, ?Rmult_0_r;
      try (assert (0 < x * y) by nra); try (assert (x * y < 0) by nra);
      repeat match goal with |- context [Rlt_dec ?a ?b] => destruct (Rlt_dec a b); [try lra|try lra] end; lra.
  - destruct (Req_EM_T x 0) as [->|Nx].
    + rewrite Rmult_0_l. destruct (Req_EM_T 0 0); [|lra]. destruct (Req_EM_T y 0); reflexivity.
    + destruct (Req_EM_T y 0) as [->|Ny].
      * rewrite Rmult_0_r. destruct (Req_EM_T 0 0); [|lra]. reflexivity.
      * destruct (Req_EM_T (x * y) 0) as [E|_]; [exfalso; apply Rmult_integral in E; tauto|].
        cbn [xadd]. f_equal. rewrite Rabs_mult, ln_mult; auto using Rabs_pos_lt.
Qed.

(** ** The sum *)
Lemma snd_slog x : snd (slog_of x) = if Req_EM_T x 0 then MInf else Fin (ln (Rabs x)).
Proof. reflexivity. Qed.
Lemma xmax_minf_l a : isnan a = false -> xmax MInf a = a.
Proof. destruct a; simpl; try reflexivity; discriminate. Qed.

Lemma max_fold_fin m l : exists r, fold_left xmax (map (fun x => snd (slog_of x)) l) (Fin m) = Fin r.
Proof.
  revert m; induction l as [|x l IH]; intros m; [eexists; reflexivity|]. cbn [map fold_left]. rewrite (snd_slog x).
  destruct (Req_EM_T x 0); unfold xmax at 2; cbn [isnan xltb].
  - apply IH.
  - destruct (Rltb m (ln (Rabs x))); apply IH.
Qed.

Lemma max_exists l : (exists x, In x l /\ x <> 0) ->
  exists m v vs, map snd (map slog_of l) = v :: vs /\ xmax_list v vs = Fin m.
Proof.
  intros (x & Hx & Nx). rewrite map_map. destruct l as [|a l]; [destruct Hx|].
  cbn [map].
  assert (G : exists m, fold_left xmax (map (fun x => snd (slog_of x)) (a :: l)) MInf = Fin m).
  { clear - Hx Nx. revert Hx. generalize (a :: l) as L. induction L as [|b L IH]; [intros []|].
    intros H. cbn [map fold_left]. rewrite (snd_slog b). destruct (Req_EM_T b 0) as [->|Nb].
    - cbn. apply IH. destruct H as [H|H]; [congruence|exact H].
    - rewrite xmax_minf_l by reflexivity. apply max_fold_fin. }
  destruct G as (m & G). exists m, (snd (slog_of a)), (map (fun x => snd (slog_of x)) l). split; [reflexivity|].
  unfold xmax_list. cbn [map fold_left] in G. rewrite xmax_minf_l in G; [exact G|].
  unfold slog_of; cbn [snd]. destruct (Req_EM_T a 0); reflexivity.
Qed.

Lemma term_divided m x : xmul (fst (slog_of x)) (xexp (xsub (snd (slog_of x)) (Fin m))) = Fin (x * exp (- m)).
Proof.
  unfold slog_of; cbn [fst snd]. destruct (Req_EM_T x 0) as [->|N].
  - simpl. f_equal. ring.
  - cbn [xsub xadd xopp xexp xmul]. f_equal. rewrite exp_plus, exp_ln by (apply Rabs_pos_lt; exact N).
    destruct (Rlt_dec x 0); [rewrite Rabs_left by lra; ring|]. destruct (Rlt_dec 0 x); [rewrite Rabs_right by lra; ring|lra].
Qed.

Lemma from_divided_of m v : from_divided (Fin m) (Fin (v * exp (- m))) = slog_of v.
Proof.
  pose proof (exp_pos (- m)) as E.
  change (from_divided (Fin m) (Fin (v * exp (- m)))) with
    (fst (array_to_slog (Fin (v * exp (- m)))), xadd (snd (array_to_slog (Fin (v * exp (- m))))) (Fin m)).
  rewrite to_slog_fin. unfold slog_of; cbn [fst snd]. f_equal.
  - f_equal. destruct (Rlt_dec v 0).
    + destruct (Rlt_dec (v * exp (- m)) 0) as [_|nn]; [reflexivity|exfalso; apply nn; nra].
    + destruct (Rlt_dec (v * exp (- m)) 0) as [q|_]; [exfalso; nra|]. destruct (Rlt_dec 0 v) as [p|p].
      * destruct (Rlt_dec 0 (v * exp (- m))) as [_|nn]; [reflexivity|exfalso; apply nn; nra].
      * assert (v = 0) as -> by lra. rewrite Rmult_0_l. destruct (Rlt_dec 0 0); [lra|reflexivity].
  - destruct (Req_EM_T v 0) as [->|N].
    + rewrite Rmult_0_l. destruct (Req_EM_T 0 0); [reflexivity|lra].
    + destruct (Req_EM_T (v * exp (- m)) 0) as [q|_]; [exfalso; apply Rmult_integral in q; lra|].
      cbn [xadd]. f_equal. rewrite Rabs_mult, (Rabs_right (exp (- m))) by lra.
      rewrite ln_mult by (try apply Rabs_pos_lt; assumption). rewrite ln_exp. ring.
Qed.

Lemma terms_of l : (exists x, In x l /\ x <> 0) ->
  exists m, terms_divided_by_max (map slog_of l) = Some (Fin m, map (fun x => Fin (x * exp (- m))) l).
Proof.
  intros H. destruct (max_exists l H) as (m & v & vs & E & M). exists m. unfold terms_divided_by_max. rewrite E. cbv zeta. rewrite M.
  f_equal. f_equal. rewrite map_map. apply map_ext. intros x. apply term_divided.
Qed.

Lemma lsum_scale_r l c : lsum (map (fun x => x * c) l) = lsum l * c.
Proof. induction l as [|a l IH]; simpl; [ring|]. rewrite IH. ring. Qed.

Lemma xsum_fin l : xsum (map Fin l) = Fin (lsum l).
Proof. apply xsum_map_fin. Qed.

Lemma log_linear_exp_of l : (exists x, In x l /\ x <> 0) -> log_linear_exp (map slog_of l) = Some (slog_of (lsum l)).
Proof.
  intros H. unfold log_linear_exp. destruct (terms_of l H) as (m & ->). f_equal.
  rewrite <- (map_map (fun x => x * exp (- m)) Fin), xsum_fin, lsum_scale_r. apply from_divided_of.
Qed.

Lemma all_zero_terms l : l <> [] -> (forall x, In x l -> x = 0) ->
  terms_divided_by_max (map slog_of l) = Some (MInf, map (fun _ => NaN) l).
Proof.
  intros N Z. assert (E : map slog_of l = map (fun _ => (Fin 0, MInf)) l).
  { apply map_ext_in. intros x Hx. rewrite (Z x Hx). unfold slog_of. destruct (Req_EM_T 0 0); [|lra].
    destruct (Rlt_dec 0 0); [lra|reflexivity]. }
  unfold terms_divided_by_max. rewrite E, map_map. cbn [snd]. destruct l as [|a l]; [congruence|]. cbn [map].
  assert (M : xmax_list MInf (map (fun _ => MInf) l) = MInf).
  { unfold xmax_list. clear. induction l as [|a l IH]; [reflexivity|]. cbn. exact IH. }
  rewrite M. cbn [map fst snd xsub xadd xopp xexp xmul]. f_equal. f_equal. f_equal. rewrite map_map. reflexivity.
Qed.
Lemma log_linear_exp_zeros l : l <> [] -> (forall x, In x l -> x = 0) -> log_linear_exp (map slog_of l) = Some (NaN, NaN).
Proof.
  intros N Z. unfold log_linear_exp. rewrite all_zero_terms by assumption. f_equal.
  rewrite xsum_nan; [reflexivity|]. destruct l; [congruence|]. left; reflexivity.
Qed.

(** ** Weights *)
Definition rweighted (w : nat -> R) (x : list R) : R := Rsum (length x) (fun i => nth i x 0 * w i).

Lemma weighted_sum_idx w l d : weighted_sum w l = xsum (map (fun i => xmul (nth i l d) (w i)) (seq 0 (length l))).
Proof.
  unfold weighted_sum. f_equal.
  assert (C : combine (seq 0 (length l)) l = map (fun i => (i, nth i l d)) (seq 0 (length l))).
  { cut (forall o, combine (seq o (length l)) l = map (fun i => (i, nth (i - o) l d)) (seq o (length l))).
    { intros H. rewrite H. apply map_ext. intros i. rewrite Nat.sub_0_r. reflexivity. }
    induction l as [|a l IH]; intros o; [reflexivity|]. cbn [length seq combine map]. rewrite Nat.sub_diag. f_equal.
    rewrite IH. apply map_ext_in. intros i Hi. apply in_seq in Hi.
    replace (i - o)%nat with (S (i - S o)) by lia. reflexivity. }
  rewrite C, map_map. reflexivity.
Qed.

Lemma weighted_sum_fin w l : weighted_sum (fun i => Fin (w i)) (map Fin l) = Fin (rweighted w l).
Proof.
  rewrite (weighted_sum_idx _ _ (Fin 0)), map_length. unfold rweighted. fold (xsum_n (length l) (fun i => xmul (nth i (map Fin l) (Fin 0)) (Fin (w i)))).
  rewrite <- xsum_n_fin. apply xsum_n_ext. intros i _. rewrite map_nth. reflexivity.
Qed.

Lemma rweighted_scale w l c : rweighted w (map (fun x => x * c) l) = rweighted w l * c.
Proof.
  unfold rweighted. rewrite map_length. rewrite (Rmult_comm _ c). rewrite <- Rsum_scal. apply Rsum_ext. intros i Hi.
  replace 0 with (0 * c) at 1 by ring. rewrite (map_nth (fun x => x * c)). ring.
Qed.

Lemma log_linear_exp_weights_of w features l : (exists x, In x l /\ x <> 0) ->
  log_linear_exp_weights (fun i f => Fin (w i f)) features (map slog_of l)
  = Some (map (fun f => slog_of (rweighted (fun i => w i f) l)) (seq 0 features)).
Proof.
  intros H. unfold log_linear_exp_weights. destruct (terms_of l H) as (m & ->). f_equal. apply map_ext. intros f.
  rewrite <- (map_map (fun x => x * exp (- m)) Fin), weighted_sum_fin, rweighted_scale. apply from_divided_of.
Qed.

Lemma weighted_sum_nan w l : In NaN l -> weighted_sum w l = NaN.
Proof.
  intros H. rewrite (weighted_sum_idx _ _ (Fin 0)). apply xsum_nan. apply In_nth with (d := Fin 0) in H. destruct H as (i & Hi & E).
  apply in_map_iff. exists i. rewrite E. split; [reflexivity|]. apply in_seq. lia.
Qed.

Lemma log_linear_exp_weights_zeros w features l : l <> [] -> (forall x, In x l -> x = 0) ->
  log_linear_exp_weights w features (map slog_of l) = Some (map (fun _ => (NaN, NaN)) (seq 0 features)).
Proof.
  intros N Z. unfold log_linear_exp_weights. rewrite all_zero_terms by assumption. f_equal. apply map_ext. intros f.
  rewrite weighted_sum_nan; [reflexivity|]. destruct l; [congruence|]. left; reflexivity.
Qed.

(** ** Dense layers *)
Lemma dense_fin features w b l :
  dense features (fun i f => Fin (w i f)) (match b with None => None | Some b => Some (fun f => Fin (b f)) end) (map Fin l)
  = map (fun f => Fin (rweighted (fun i => w i f) l + match b with None => 0 | Some b => b f end)) (seq 0 features).
Proof.
  unfold dense. apply map_ext. intros f. rewrite weighted_sum_fin. cbv zeta. destruct b; simpl; [reflexivity|f_equal; ring].
Qed.

Lemma rweighted_app w l a : rweighted w (l ++ [a]) = rweighted w l + a * w (length l).
Proof.
  unfold rweighted. rewrite app_length. cbn [length]. rewrite Nat.add_1_r. cbn [Rsum]. f_equal.
  - apply Rsum_ext. intros i Hi. rewrite app_nth1 by lia. reflexivity.
  - rewrite app_nth2, Nat.sub_diag by lia. reflexivity.
Qed.

Lemma slog_of_1 : slog_of 1 = (Fin 1, Fin 0).
Proof.
  unfold slog_of. destruct (Rlt_dec 1 0); [lra|]. destruct (Rlt_dec 0 1); [|lra]. destruct (Req_EM_T 1 0); [lra|].
  rewrite Rabs_R1, ln_1. reflexivity.
Qed.

Lemma log_dense_bias features w l :
  log_domain_dense features (fun i f => Fin (w i f)) true (map slog_of l)
  = Some (map array_to_slog (dense features (fun i f => Fin (w i f)) (Some (fun f => Fin (w (length l) f))) (map Fin l))).
Proof.
  unfold log_domain_dense. rewrite <- slog_of_1. change [slog_of 1] with (map slog_of [1]). rewrite <- map_app.
  rewrite log_linear_exp_weights_of by (exists 1; split; [apply in_or_app; right; left; reflexivity|lra]).
  rewrite (dense_fin features w (Some (fun f => w (length l) f)) l), map_map. f_equal. apply map_ext. intros f.
  rewrite to_slog_fin, rweighted_app. f_equal. ring.
Qed.

Lemma log_dense_nobias features w l : (exists x, In x l /\ x <> 0) ->
  log_domain_dense features (fun i f => Fin (w i f)) false (map slog_of l)
  = Some (map array_to_slog (dense features (fun i f => Fin (w i f)) None (map Fin l))).
Proof.
  intros H. unfold log_domain_dense. rewrite log_linear_exp_weights_of by exact H.
  rewrite (dense_fin features w None l), map_map. f_equal. apply map_ext. intros f. rewrite to_slog_fin. f_equal. ring.
Qed.
