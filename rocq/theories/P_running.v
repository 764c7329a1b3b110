(** * Proofs about running averages *)
From Coq Require Import List Arith Bool Reals Lia Lra.
From Verif Require Import XReal M_io M_vmc S_vmc P_vmc2.
Import ListNotations.
Local Open Scope R_scope.

Lemma rsum_app a b : rsum (a ++ b) = rsum a + rsum b.
Proof. unfold rsum. induction a as [|x a IH]; simpl; [lra|]. rewrite IH; lra. Qed.

Lemma lastn_snoc {A} k (l : list A) x :
  (1 <= k)%nat ->
  lastn k (l ++ [x]) = (if Nat.ltb (length l) k then l else skipn (S (length l - k)) l) ++ [x].
Proof.
  intros Hk. unfold lastn. rewrite app_length. simpl.
  destruct (Nat.ltb_spec (length l) k).
  - replace (length l + 1 - k)%nat with 0%nat by lia. reflexivity.
  - replace (length l + 1 - k)%nat with (S (length l - k)) by lia.
    rewrite skipn_app. replace (S (length l - k) - length l)%nat with 0%nat by lia. reflexivity.
Qed.

Lemma lastn_length {A} k (l : list A) : length (lastn k l) = Nat.min k (length l).
Proof. unfold lastn. rewrite skipn_length. lia. Qed.

Lemma lastn_all {A} k (l : list A) : (length l <= k)%nat -> lastn k l = l.
Proof. intros H. unfold lastn. replace (length l - k)%nat with 0%nat by lia. reflexivity. Qed.

Lemma skipn_cons_split {A} k (l : list A) d :
  (k < length l)%nat -> skipn k l = nth k l d :: skipn (S k) l.
Proof.
  revert l; induction k as [|k IH]; intros [|a l] H; simpl in *; try lia; [reflexivity|].
  rewrite (IH l) by lia. reflexivity.
Qed.

(** The running metric after any list of finite values, window at least 2. *)
Lemma tracked_fin nh (l : list R) :
  (2 <= nh)%nat ->
  tracked nh (map Fin l) =
    {| avg := Fin (if l then 0 else rmean (lastn (nh - 1) l));
       history := map Fin (lastn (nh - 1) l) |}.
Proof.
  intros Hnh. induction l as [|x l IH] using rev_ind; [reflexivity|].
  unfold tracked in *. rewrite map_app, fold_left_app. rewrite IH. simpl fold_left.
  unfold move_history_window. destruct nh as [|nh']; [lia|]. set (nh := S nh') in *.
  cbn [history avg].
  set (w := lastn (nh - 1) l).
  assert (Hw : length w = Nat.min (nh - 1) (length l)) by apply lastn_length.
  rewrite map_length.
  assert (Hsum : xadd (xmul (xnat (length w)) (Fin (match l with [] => 0 | _ :: _ => rmean w end))) (Fin x)
                 = Fin (rsum w + x)).
  { unfold xnat. simpl. f_equal. destruct l as [|y l'].
    - simpl in *. unfold w, lastn. simpl. unfold rsum; simpl. lra.
    - unfold rmean. field_simplify_eq; [reflexivity|].
      rewrite Hw. apply not_0_INR. simpl. lia. }
  rewrite Hsum.
  assert (Hne : (match l ++ [x] with [] => 0 | _ :: _ => rmean (lastn (nh - 1) (l ++ [x])) end)
                = rmean (lastn (nh - 1) (l ++ [x]))).
  { destruct l; reflexivity. }
  rewrite Hne.
  rewrite lastn_snoc by lia.
  destruct (Nat.leb_spec nh (S (length w))) as [Hge|Hlt].
  - (* window is full: oldest value dropped *)
    assert (Hlen : (nh - 1 <= length l)%nat) by lia.
    destruct (Nat.ltb_spec (length l) (nh - 1)) as [|_]; [lia|].
    assert (Ew : w = nth (length l - (nh - 1)) l 0 :: skipn (S (length l - (nh - 1))) l).
    { unfold w, lastn. apply skipn_cons_split. lia. }
    rewrite Ew. cbn [map app]. f_equal.
    + rewrite Ew in Hw. cbn [length] in Hw.
      replace (S (length (nth (length l - (nh - 1)) l 0%R :: skipn (S (length l - (nh - 1))) l)) - 1)%nat
        with (nh - 1)%nat by (cbn [length]; lia).
      unfold xsub, xnat. cbn [xopp xadd]. rewrite xdiv_fin by (apply not_0_INR; lia).
      f_equal. unfold rmean. rewrite app_length. cbn [length].
      replace (length (skipn (S (length l - (nh - 1))) l) + 1)%nat with (nh - 1)%nat by lia.
      f_equal. unfold rsum at 1. cbn [fold_right]. rewrite rsum_app.
      unfold rsum. cbn [fold_right]. lra.
    + rewrite map_app. reflexivity.
  - assert (Hlen : (length l < nh - 1)%nat) by lia.
    destruct (Nat.ltb_spec (length l) (nh - 1)) as [_|]; [|lia].
    assert (Ew : w = l) by (apply lastn_all; lia).
    rewrite Ew. f_equal.
    + unfold xnat. rewrite xdiv_fin by (apply not_0_INR; lia). f_equal.
      unfold rmean. rewrite app_length, rsum_app. cbn [length].
      rewrite Nat.add_1_r. unfold rsum at 3. cbn [fold_right]. f_equal. lra.
    + rewrite map_app. reflexivity.
Qed.

(** The history, whatever the values: the last [nh - 1] of them. *)
Lemma tracked_history nh (l : list xr) :
  (2 <= nh)%nat -> history (tracked nh l) = lastn (nh - 1) l.
Proof.
  intros Hnh. induction l as [|x l IH] using rev_ind; [reflexivity|].
  unfold tracked in *. rewrite fold_left_app. simpl fold_left.
  unfold move_history_window at 1. destruct nh as [|nh']; [lia|]. set (nh := S nh') in *.
  rewrite IH. rewrite lastn_snoc by lia.
  pose proof (lastn_length (nh - 1) l) as Hw.
  destruct (Nat.leb_spec nh (S (length (lastn (nh - 1) l)))) as [Hge|Hlt].
  - destruct (Nat.ltb_spec (length l) (nh - 1)) as [|_]; [lia|].
    assert (Ew : lastn (nh - 1) l = nth (length l - (nh - 1)) l NaN :: skipn (S (length l - (nh - 1))) l).
    { unfold lastn. apply skipn_cons_split. lia. }
    rewrite Ew. reflexivity.
  - destruct (Nat.ltb_spec (length l) (nh - 1)) as [_|]; [|lia].
    rewrite lastn_all by lia. reflexivity.
Qed.

(** [nhistory_max = 1]: after any update the average is NaN (0/0) or an invalid operation. *)
Lemma tracked_one_fin (l : list R) :
  l <> [] -> tracked 1 (map Fin l) = {| avg := NaN; history := [] |}.
Proof.
  intros Hne. induction l as [|x l IH] using rev_ind; [congruence|].
  unfold tracked in *. rewrite map_app, fold_left_app.
  destruct l as [|y l].
  - simpl. f_equal. unfold xsub, xnat. cbn [xopp xadd xmul xdiv]. simpl INR.
    destruct (Req_EM_T 0 0); [|lra]. unfold inf_of_sign.
    destruct (Rlt_dec 0 (0 * 0 + x + - x)); [lra|]. destruct (Rlt_dec (0 * 0 + x + - x) 0); [lra|]. reflexivity.
  - rewrite IH by discriminate. reflexivity.
Qed.

Lemma tracked_zero (l : list xr) : tracked 0 l = running_init.
Proof. unfold tracked. induction l as [|x l IH]; [reflexivity|]. simpl. exact IH. Qed.

(** A NaN never leaves the average. *)
Lemma move_nan_avg nh m v : (1 <= nh)%nat -> avg m = NaN -> avg (move_history_window nh m v) = NaN.
Proof.
  intros Hnh Hm. unfold move_history_window. destruct nh as [|nh]; [lia|].
  rewrite Hm. rewrite xmul_nan_r, xadd_nan_l.
  destruct (Nat.leb _ _); [|apply xdiv_nan_l].
  destruct (history m ++ [v]) eqn:E; [destruct (history m); discriminate|].
  cbn [avg]. unfold xsub. rewrite xadd_nan_l. apply xdiv_nan_l.
Qed.

Lemma move_nan_value nh m : (1 <= nh)%nat -> avg (move_history_window nh m NaN) = NaN.
Proof.
  intros Hnh. unfold move_history_window. destruct nh as [|nh]; [lia|].
  rewrite xadd_nan_r.
  destruct (Nat.leb _ _); [|apply xdiv_nan_l].
  destruct (history m ++ [NaN]) eqn:E; [destruct (history m); discriminate|].
  cbn [avg]. unfold xsub. rewrite xadd_nan_l. apply xdiv_nan_l.
Qed.

Lemma tracked_nan nh (l : list xr) : (1 <= nh)%nat -> In NaN l -> avg (tracked nh l) = NaN.
Proof.
  intros Hnh. unfold tracked. induction l as [|x l IH] using rev_ind; [intros []|].
  rewrite fold_left_app. simpl fold_left. intros Hin. apply in_app_or in Hin.
  destruct Hin as [Hin|[->|[]]].
  - apply move_nan_avg; auto.
  - apply move_nan_value; exact Hnh.
Qed.

(** The checkpoint metric on finite inputs. *)
Lemma get_checkpoint_metric_fin e v ns sc :
  0 <= v ->
  get_checkpoint_metric (Fin e) (Fin v) ns sc =
  Fin (if Rleb sc 0 then e else if Nat.eqb ns 0 then e else e + sqrt (v / (INR ns / sc))).
Proof.
  intros Hv. unfold get_checkpoint_metric.
  destruct (Rleb sc 0) eqn:Es; [reflexivity|]. destruct (Nat.eqb_spec ns 0) as [->|Hn]; [reflexivity|].
  simpl orb. cbv iota. apply Rleb_false in Es.
  assert (Hpos : 0 < INR ns / sc).
  { apply Rdiv_lt_0_compat; [|exact Es]. apply lt_0_INR. lia. }
  rewrite xdiv_fin by lra. rewrite xsqrt_fin; [reflexivity|].
  apply Rmult_le_pos; [exact Hv|]. left. apply Rinv_0_lt_compat, Hpos.
Qed.

Lemma get_checkpoint_metric_nan v ns sc : get_checkpoint_metric NaN v ns sc = NaN.
Proof. unfold get_checkpoint_metric. destruct (_ || _); reflexivity. Qed.

Lemma get_checkpoint_metric_nan_v e ns sc : 0 < sc -> (ns <> 0)%nat -> get_checkpoint_metric e NaN ns sc = NaN.
Proof.
  intros Hs Hn. unfold get_checkpoint_metric.
  destruct (Rleb sc 0) eqn:E; [apply Rleb_true in E; lra|].
  destruct (Nat.eqb_spec ns 0); [contradiction|]. simpl orb. cbv iota.
  rewrite xdiv_nan_l. simpl. apply xadd_nan_r.
Qed.
