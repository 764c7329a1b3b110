(** P_fenergy4: total variation, clipping of whole batches, and NaN energies. *)
From Coq Require Import ZArith Reals.
From Flocq Require Import Core IEEE754.BinarySingleNaN.
From Coq Require Import Lia Lra List Permutation Bool Arith.
Import ListNotations.
From Verif Require Import M_float S_float P_float P_float2 P_float3 P_float4 M_fwalk S_fwalk P_fwalk P_fwalk2 M_fenergy S_fenergy P_fenergy P_fenergy2 P_fenergy3.
Open Scope R_scope.

Section Batches.
Variables prec emax : Z.
Context {Hp : Prec_gt_0 prec}.
Context {He : Prec_lt_emax prec emax}.
Notation fl := (binary_float prec emax).
Notation u := (unit_roundoff prec).
Notation fzero := (fzero prec emax).
Notation fadd := (fadd prec emax). Notation fsub := (fsub prec emax). Notation fmul := (fmul prec emax).
Notation fdiv := (fdiv prec emax). Notation of_nat := (of_nat prec emax).
Notation average := (average prec emax). Notation numbers := (numbers prec emax).
Notation width_like := (width_like prec emax).

Lemma sub_nan_l' (c : fl) : fsub B754_nan c = B754_nan. Proof. destruct c; reflexivity. Qed.
Lemma sub_nan_r' (c : fl) : fsub c B754_nan = B754_nan. Proof. destruct c; reflexivity. Qed.
Lemma babs_nan (x : fl) : is_nan (Babs x) = is_nan x. Proof. destruct x; reflexivity. Qed.
Lemma is_nan_eq (x : fl) : is_nan x = true -> x = B754_nan. Proof. destruct x; try discriminate; reflexivity. Qed.

Lemma dev_nan (e c : fl) : is_finite c = true -> is_finite e = true \/ e = B754_nan -> is_nan (Babs (fsub e c)) = is_nan e.
Proof.
  intros Fc [Fe| ->]; [|rewrite sub_nan_l'; reflexivity]. rewrite (finite_not_nan prec emax e Fe). apply (wl_not_nan prec emax). apply (wl_deviation prec emax); assumption.
Qed.
Lemma numbers_dev c l : is_finite c = true -> (forall e, In e l -> is_finite e = true \/ e = B754_nan) ->
  numbers (map (fun e => Babs (fsub e c)) l) = map (fun e => Babs (fsub e c)) (numbers l).
Proof. intros Fc H. apply numbers_map. intros e He'. apply dev_nan; [exact Fc|apply H; exact He']. Qed.

Variable fs : list fl -> fl.
Hypothesis SUM : forall l, is_sum prec emax l (fs l).

Lemma tv_width' c l : is_finite c = true -> numbers l <> [] -> INR (length (numbers l)) <= bpow radix2 prec -> (forall e, In e l -> is_finite e = true \/ e = B754_nan) ->
  width_like (total_variation prec emax fs c l).
Proof.
  intros Fc NE L H. unfold total_variation, nanmean. change (filter (fun x : fl => negb (is_nan x))) with numbers. rewrite numbers_dev, map_length by assumption.
  apply (wl_div_of_nat prec emax); [|destruct (numbers l); [congruence|cbn; lia]|exact L].
  eapply (sum_closed prec emax width_like); [apply (wl_add prec emax)|right; split; [reflexivity|cbn; lra]|apply SUM|].
  intros x Hx. apply in_map_iff in Hx. destruct Hx as (y & <- & Hy). apply in_map_iff in Hy. destruct Hy as (e & <- & Hy). destruct (H e Hy) as [Fe| ->].
  - pose proof (wl_deviation prec emax e c Fe Fc) as W. rewrite (wl_not_nan prec emax _ W). exact W.
  - rewrite sub_nan_l'. right. split; [reflexivity|cbn; lra].
Qed.

Notation clipped_to := (clipped_to prec emax).
Lemma clip_nan lo hi : clip prec emax B754_nan lo hi = B754_nan. Proof. reflexivity. Qed.
Lemma clipping_spec threshold c l : is_finite c = true -> is_finite threshold = true -> 0 < B2R threshold ->
  numbers l <> [] -> INR (length (numbers l)) <= bpow radix2 prec -> (forall e, In e l -> is_finite e = true \/ e = B754_nan) ->
  let w := fmul threshold (total_variation prec emax fs c l) in
  width_like w /\ forall e, clipped_to c w e (clip prec emax e (fsub c w) (fadd c w)).
Proof.
  intros Fc Ft Pt NE L H w. assert (W : width_like w) by (apply (wl_mul prec emax); [exact Ft|exact Pt|apply tv_width'; assumption]).
  split; [exact W|]. intros e. split; [intros ->; apply clip_nan|]. intros Fe.
  apply (clip_spec prec emax e c (fsub c w) (fadd c w) Fe); [apply (lower_bound prec emax)|apply (upper_bound prec emax)]; assumption.
Qed.

(** ** The width *)
Lemma tv_accuracy k c l : (0 <= k)%Z -> (k + 1 + prec < emax)%Z -> is_finite c = true -> Rabs (B2R c) <= bpow radix2 k ->
  numbers l <> [] -> INR (length (numbers l)) <= bpow radix2 prec -> (forall e, In e l -> (is_finite e = true /\ Rabs (B2R e) <= bpow radix2 k) \/ e = B754_nan) ->
  let q := total_variation prec emax fs c l in
  is_finite q = true /\ 0 <= B2R q /\ Rabs (B2R q) <= bpow radix2 (k + 1) /\
  Rabs (B2R q - real_mean (map (fun e => Rabs (B2R e - B2R c)) (numbers l))) <= u * ((INR (length (numbers l)) + 2) * bpow radix2 (k + 1)).
Proof.
  intros K0 K1 Fc Bc NE L H q. pose proof (prec1 prec) as P1.
  assert (H' : forall e, In e l -> is_finite e = true \/ e = B754_nan) by (intros e Hx; destruct (H e Hx) as [[F _]|F]; auto).
  assert (E1 : bpow radix2 (k + 1) = 2 * bpow radix2 k) by (rewrite bpow_plus; change (bpow radix2 1) with 2; ring).
  pose proof (bpow_gt_0 radix2 k) as PB. set (dv := fun e => Babs (fsub e c)).
  assert (D : forall e, is_finite e = true -> Rabs (B2R e) <= bpow radix2 k -> is_finite (dv e) = true /\ 0 <= B2R (dv e) /\ Rabs (B2R (dv e)) <= bpow radix2 (k + 1) /\ Rabs (B2R (dv e) - Rabs (B2R e - B2R c)) <= u * bpow radix2 (k + 1)).
  { intros e Fe Be. assert (Bd : Rabs (B2R e - B2R c) <= bpow radix2 (k + 1)) by (rewrite E1; apply Rabs_le; apply Rabs_le_inv in Be; apply Rabs_le_inv in Bc; lra).
    destruct (sub_scaled prec emax (k + 1) e c ltac:(lia) ltac:(lia) Fe Fc Bd) as [F1 [V1 B1]]. unfold dv. rewrite is_finite_Babs, B2R_Babs, Rabs_Rabsolu.
    split; [exact F1|]. split; [apply Rabs_pos|]. split; [exact B1|]. eapply Rle_trans; [apply Rabs_triang_inv2|]. rewrite V1. apply (rnd_err prec emax); [apply (normal_le prec emax (k + 1)); lia|exact Bd]. }
  assert (ND : numbers (map dv l) = map dv (numbers l)) by (apply numbers_dev; assumption).
  assert (IN : forall e, In e (numbers l) -> is_finite e = true /\ Rabs (B2R e) <= bpow radix2 k).
  { intros e Hx. apply filter_In in Hx. destruct Hx as [Hx Nn]. destruct (H e Hx) as [Q| ->]; [exact Q|discriminate]. }
  destruct (device_mean prec emax (k + 1) ltac:(lia) ltac:(lia) fs SUM true (map dv l)) as [F [Bq [Eq Nq]]].
  - rewrite ND. destruct (numbers l); [congruence|discriminate].
  - rewrite ND, map_length. exact L.
  - intros y Hy. apply in_map_iff in Hy. destruct Hy as (e & <- & Hy). destruct (H e Hy) as [[Fe Be]| ->].
    + left. destruct (D e Fe Be) as [Q1 [_ [Q2 _]]]. split; assumption.
    + right. split; [reflexivity|]. unfold dv. rewrite sub_nan_l'. reflexivity.
  - change (nanmean prec emax fs (map dv l)) with q in *. rewrite ND, map_length, map_map in Eq. split; [exact F|]. split.
    + apply Nq. rewrite ND. intros y Hy. apply in_map_iff in Hy. destruct Hy as (e & <- & Hy). destruct (IN e Hy) as [Fe Be]. apply (D e Fe Be).
    + split; [exact Bq|]. pose proof (real_mean_diff (fun e => B2R (dv e)) (fun e => Rabs (B2R e - B2R c)) (numbers l) (u * bpow radix2 (k + 1)) NE) as M.
      assert (MM : forall x, In x (numbers l) -> Rabs (B2R (dv x) - Rabs (B2R x - B2R c)) <= u * bpow radix2 (k + 1)) by (intros e Hy; destruct (IN e Hy) as [Fe Be]; apply (D e Fe Be)).
      specialize (M MM). set (m1 := real_mean (map (fun e => B2R (dv e)) (numbers l))) in *. set (m2 := real_mean (map (fun e => Rabs (B2R e - B2R c)) (numbers l))) in *.
      replace (B2R q - m2) with ((B2R q - m1) + (m1 - m2)) by ring. eapply Rle_trans; [apply Rabs_triang|]. lra.
Qed.

(** ** Energies that are not numbers, clipped about the mean *)
Lemma clip_bounds_nan (e : fl) : clip prec emax e B754_nan B754_nan = B754_nan.
Proof. unfold clip, fmin, fmax. destruct e as [s|s| |s m h H]; reflexivity. Qed.
Lemma nan_center_clips t l : map (fun e => clip prec emax e (fsub B754_nan (fmul t (total_variation prec emax fs B754_nan l))) (fadd B754_nan (fmul t (total_variation prec emax fs B754_nan l)))) l = map (fun _ => B754_nan) l.
Proof. apply map_ext. intros e. rewrite (sub_nan_l'), (nan_add prec emax) by (left; reflexivity). apply clip_bounds_nan. Qed.

Lemma zero_add (x y : fl) : (exists s, x = B754_zero s) -> (exists s, y = B754_zero s) -> exists s, fadd x y = B754_zero s.
Proof. intros [s ->] [s' ->]. destruct s, s'; eexists; reflexivity. Qed.
Lemma nanmean_nans l : (forall y, In y l -> y = B754_nan) -> nanmean prec emax fs l = B754_nan.
Proof.
  intros H. unfold nanmean. assert (F : filter (fun x : fl => negb (is_nan x)) l = []).
  { clear -H. induction l as [|x l IH]; [reflexivity|]. cbn [filter]. rewrite (H x (or_introl eq_refl)). cbn [is_nan negb]. apply IH. intros y Hy. apply H. right. exact Hy. }
  rewrite F. destruct (sum_closed prec emax (fun x => exists s, x = B754_zero s) (map (fun x : fl => if is_nan x then fzero else x) l) _ zero_add (ex_intro _ false eq_refl) (SUM _)) as [s E].
  - intros x Hx. apply in_map_iff in Hx. destruct Hx as (y & <- & Hy). rewrite (H y Hy). exists false. reflexivity.
  - rewrite E. cbn [length]. destruct s; reflexivity.
Qed.
Lemma all_nans nan_safe ls l : In l ls -> (forall l y, In l ls -> In y l -> y = B754_nan) -> (forall l, In l ls -> l <> []) -> allreduce_mean prec emax fs nan_safe ls = B754_nan.
Proof.
  intros Hl H NE. unfold allreduce_mean. apply (mean_nan prec emax fs SUM). apply in_map_iff. exists l. split; [|exact Hl]. destruct nan_safe.
  - apply nanmean_nans. intros y. apply H. exact Hl.
  - apply (mean_nan prec emax fs SUM). specialize (NE l Hl). destruct l as [|y l]; [congruence|]. left. apply (H (y :: l) y Hl). left. reflexivity.
Qed.

(** ** Equal shares *)
Lemma sum_app (a b : list R) : fold_right Rplus 0 (a ++ b) = fold_right Rplus 0 a + fold_right Rplus 0 b.
Proof. induction a as [|x a IH]; cbn; [lra|rewrite IH; lra]. Qed.
Lemma sum_means (m : nat) (h : fl -> R) (ls : list (list fl)) : (0 < m)%nat -> (forall l, In l ls -> length l = m) ->
  fold_right Rplus 0 (map (fun l => real_mean (map h l)) ls) = fold_right Rplus 0 (map h (concat ls)) / INR m /\ length (concat ls) = (length ls * m)%nat.
Proof.
  intros M. assert (PM : 0 < INR m) by (apply lt_0_INR; exact M). induction ls as [|l ls IH]; intros H; [split; [cbn; lra|reflexivity]|].
  destruct IH as [I1 I2]; [intros; apply H; right; assumption|]. specialize (H l (or_introl eq_refl)). cbn [map fold_right concat length]. rewrite map_app, sum_app, app_length, I1, I2, H.
  split; [|lia]. unfold real_mean. rewrite map_length, H. field. lra.
Qed.
Lemma equal_shares (m : nat) h ls : (0 < m)%nat -> ls <> [] -> (forall l, In l ls -> length l = m /\ numbers l = l) ->
  average h ls = fold_right Rplus 0 (map h (concat ls)) / INR (length (concat ls)) /\ length (concat ls) = (length ls * m)%nat.
Proof.
  intros M NE H. destruct (sum_means m h ls M) as [S1 S2]; [intros; apply H; assumption|]. split; [|exact S2]. unfold S_fenergy.average, real_mean at 1. rewrite map_length.
  rewrite (map_ext_in _ (fun l => real_mean (map h l))) by (intros l Hl; rewrite (proj2 (H l Hl)); reflexivity). rewrite S1, S2, mult_INR. field.
  split; apply not_0_INR; [lia|destruct ls; [congruence|discriminate]].
Qed.

(** ** Without NaN, nan_safe changes nothing *)
Lemma nanmean_mean l : numbers l = l -> nanmean prec emax fs l = mean prec emax fs l.
Proof.
  intros N. unfold nanmean, mean. change (filter (fun x : fl => negb (is_nan x))) with numbers. rewrite N. f_equal. f_equal. rewrite <- (map_id l) at 2. apply map_ext_in. intros x Hx.
  rewrite <- N in Hx. apply filter_In in Hx. destruct Hx as [_ Hx]. destruct (is_nan x); [discriminate|reflexivity].
Qed.
Lemma allreduce_same ls : (forall l, In l ls -> numbers l = l) -> allreduce_mean prec emax fs true ls = allreduce_mean prec emax fs false ls.
Proof. intros H. unfold allreduce_mean. f_equal. apply map_ext_in. intros l Hl. apply nanmean_mean. apply H. exact Hl. Qed.
End Batches.
