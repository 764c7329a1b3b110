(** * The dynamically adjusted step width *)
From Coq Require Import Reals List Bool Arith Lra Lia.
From Verif Require Import XReal Rsum M_mcmc S_mcmc P_mcmc.
Import ListNotations.
Local Open Scope R_scope.

Lemma adjust_factor target thr adj old c : 0 <= thr ->
  adjust_std_move target thr adj old c = old * width_factor target thr adj c.
Proof.
  intros H. unfold adjust_std_move, width_factor, Rltb.
  destruct (Rlt_dec (target + thr) c), (Rlt_dec c (target - thr)); lra.
Qed.

Lemma Rprod_bounds k f lo hi : 0 < lo -> (forall i, (i < k)%nat -> lo <= f i <= hi) ->
  0 < Rprod k f /\ lo ^ k <= Rprod k f <= hi ^ k.
Proof.
  intros Hlo. induction k as [|k IH]; intros H; simpl; [lra|].
  destruct IH as (I0 & I1 & I2); [intros; apply H; lia|]. specialize (H k ltac:(lia)).
  assert (0 < lo ^ k) by (apply pow_lt; assumption).
  split; [apply Rmult_lt_0_compat; lra|]. split.
  - rewrite Rmult_comm. apply Rmult_le_compat; lra.
  - rewrite (Rmult_comm hi). apply Rmult_le_compat; lra.
Qed.

Section Width.
Variables (nmoves : nat) (target thr adj : R).
Hypothesis Hthr : 0 <= thr.
Let n := Nat.max 1 nmoves.
Let upd := update_move_metadata1 nmoves (adjust_std_move target thr adj).
Let factor := width_factor target thr adj.

Definition run1 (avgs : list R) (m : move_metadata) := fold_left (fun m a => upd a m) avgs m.

Lemma window_mean_app avgs l s k : (s + k <= length avgs)%nat ->
  window_mean (avgs ++ l) s k = window_mean avgs s k.
Proof.
  intros H. unfold window_mean. f_equal. apply Rsum_ext. intros i Hi. apply app_nth1. lia.
Qed.

Lemma Rprod_ext k f h : (forall i, (i < k)%nat -> f i = h i) -> Rprod k f = Rprod k h.
Proof. induction k; intros H; simpl; auto. rewrite IHk, H; auto. Qed.

Lemma run1_exact avgs std0 :
  let t := length avgs in
  let m := run1 avgs {| std_move := std0; acc_sum := 0; moves := 0 |} in
  moves m = (t mod n)%nat /\
  acc_sum m = Rsum (t mod n) (fun i => nth (t / n * n + i) avgs 0) /\
  std_move m = std0 * Rprod (t / n) (fun w => factor (window_mean avgs (w * n) n)).
Proof.
  assert (Hn : (1 <= n)%nat) by (unfold n; lia).
  induction avgs as [|a avgs IH] using rev_ind; cbv zeta in *.
  - simpl. rewrite Nat.mod_0_l, Nat.div_0_l by lia. simpl. repeat split. ring.
  - unfold run1 in *. rewrite fold_left_app. cbn [fold_left].
    set (m := fold_left _ avgs _) in *. destruct IH as (I1 & I2 & I3).
    rewrite app_length. cbn [length]. set (t := length avgs) in *.
    assert (Ht : (t = n * (t / n) + t mod n)%nat) by (apply Nat.div_mod; lia).
    assert (Hr : (t mod n < n)%nat) by (apply Nat.mod_upper_bound; lia).
    unfold upd at 1, upd at 1, upd at 1. unfold update_move_metadata1. rewrite I1.
    assert (Hle : Nat.leb nmoves (S (t mod n)) = Nat.eqb (S (t mod n)) n).
    { destruct (Nat.eqb_spec (S (t mod n)) n) as [E|E].
      - apply Nat.leb_le. unfold n in *. lia.
      - apply Nat.leb_gt. unfold n in *. lia. }
    rewrite Hle.
    assert (Hs : acc_sum m + a = Rsum (S (t mod n)) (fun i => nth (t / n * n + i) (avgs ++ [a]) 0)).
    { cbn [Rsum]. rewrite I2. f_equal.
      - apply Rsum_ext. intros i Hi. rewrite app_nth1; [reflexivity|]. unfold t in *. lia.
      - rewrite app_nth2 by (unfold t in *; lia).
        replace (t / n * n + t mod n - length avgs)%nat with 0%nat by (unfold t in *; lia). reflexivity. }
    destruct (Nat.eqb_spec (S (t mod n)) n) as [E|E]; cbn [std_move acc_sum moves].
    + assert (Hd : ((t + 1) / n = S (t / n))%nat).
      { symmetry. apply Nat.div_unique with (r := 0%nat); lia. }
      assert (Hm : ((t + 1) mod n = 0)%nat).
      { symmetry. apply Nat.mod_unique with (q := S (t / n)); lia. }
      rewrite Hd, Hm. split; [reflexivity|]. split; [reflexivity|].
      rewrite adjust_factor by assumption. cbn [Rprod]. rewrite I3, Hs, E.
      rewrite Rmult_assoc. f_equal. f_equal.
      * apply Rprod_ext. intros w Hw. f_equal. symmetry. apply window_mean_app. fold t. nia.
    + assert (Hd : ((t + 1) / n = t / n)%nat).
      { symmetry. apply Nat.div_unique with (r := S (t mod n)); lia. }
      assert (Hm : ((t + 1) mod n = S (t mod n))%nat).
      { symmetry. apply Nat.mod_unique with (q := (t / n)%nat); lia. }
      rewrite Hd, Hm. split; [reflexivity|]. split; [exact Hs|].
      rewrite I3. f_equal. apply Rprod_ext. intros w Hw. f_equal. symmetry. apply window_mean_app. fold t. nia.
Qed.

Lemma factor_range c : 0 <= adj -> 1 - adj <= factor c <= 1 + adj.
Proof.
  intros H. unfold factor, width_factor.
  destruct (Rlt_dec (target + thr) c); [lra|]. destruct (Rlt_dec c (target - thr)); lra.
Qed.

Lemma map_repeat' {A B} (f : A -> B) a k : map f (repeat a k) = repeat (f a) k.
Proof. induction k; simpl; congruence. Qed.

(** All devices in lock step. *)
Lemma replicas ndev hist m0 :
  fold_left (update_move_metadata nmoves (adjust_std_move target thr adj)) hist (repeat m0 ndev)
  = repeat (run1 (map mean_all_devices hist) m0) ndev.
Proof.
  revert m0. induction hist as [|h hist IH]; intros m0; simpl; [reflexivity|].
  unfold update_move_metadata at 2. rewrite map_repeat'. apply IH.
Qed.
End Width.

Lemma mean_all_devices_global masks w : (0 < w)%nat -> masks <> [] ->
  Forall (fun m => length m = w) masks -> mean_all_devices masks = accepted_fraction masks.
Proof.
  intros Hw Hne HF. unfold mean_all_devices, accepted_fraction, mask_mean.
  assert (E : length (concat masks) = (length masks * w)%nat /\
    fold_right Rplus 0 (map (fun mask => INR (length (filter (fun b : bool => b) mask)) / INR (length mask)) masks)
    = INR (length (filter (fun b => b) (concat masks))) / INR w).
  { assert (0 < INR w) by (apply lt_0_INR; assumption). clear Hne. induction HF as [|m masks Hm HF IH]; simpl.
    - split; [reflexivity|]. field. lra.
    - destruct IH as [I1 I2]. rewrite app_length, I1, Hm, filter_app, app_length, plus_INR, I2. split; [reflexivity|].
      field. lra. }
  destruct E as [-> ->]. rewrite mult_INR.
  assert (0 < INR w) by (apply lt_0_INR; assumption).
  assert (0 < INR (length masks)) by (apply lt_0_INR; destruct masks; [congruence|simpl; lia]).
  field. lra.
Qed.
