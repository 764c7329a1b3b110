(** * Extended reals: the number domain used for properties about NaN and infinities.

    The program computes with IEEE floats (JAX arrays, numpy).  [xr] keeps the special values
    NaN, +inf and -inf with their IEEE rules and replaces rounded finite arithmetic by exact real
    arithmetic (simplification: no rounding, no overflow, no signed zero; 1/0 is +inf because
    the code never produces a negative zero on purpose). *)
From Coq Require Import Reals Lra List Bool.
Import ListNotations.
Local Open Scope R_scope.

Inductive xr : Type := Fin (r : R) | PInf | MInf | NaN.

Definition isnan (x : xr) : bool := match x with NaN => true | _ => false end.
Definition isfin (x : xr) : bool := match x with Fin _ => true | _ => false end.

(** Boolean real comparisons. *)
Definition Rltb (a b : R) : bool := if Rlt_dec a b then true else false.
Definition Rleb (a b : R) : bool := if Rle_dec a b then true else false.
Definition Reqb (a b : R) : bool := if Req_EM_T a b then true else false.

(** IEEE addition. *)
Definition xadd (x y : xr) : xr :=
  match x, y with
  | NaN, _ | _, NaN => NaN
  | Fin a, Fin b => Fin (a + b)
  | PInf, MInf | MInf, PInf => NaN
  | PInf, _ | _, PInf => PInf
  | MInf, _ | _, MInf => MInf
  end.

Definition xopp (x : xr) : xr :=
  match x with Fin a => Fin (- a) | PInf => MInf | MInf => PInf | NaN => NaN end.

Definition xsub (x y : xr) : xr := xadd x (xopp y).

(** Infinity with the sign of a non-zero real; 0 * inf is NaN. *)
Definition inf_of_sign (a : R) : xr :=
  if Rlt_dec 0 a then PInf else if Rlt_dec a 0 then MInf else NaN.

Definition xmul (x y : xr) : xr :=
  match x, y with
  | NaN, _ | _, NaN => NaN
  | Fin a, Fin b => Fin (a * b)
  | Fin a, PInf | PInf, Fin a => inf_of_sign a
  | Fin a, MInf | MInf, Fin a => inf_of_sign (- a)
  | PInf, PInf | MInf, MInf => PInf
  | PInf, MInf | MInf, PInf => MInf
  end.

(** IEEE division with an unsigned (positive) zero. *)
Definition xdiv (x y : xr) : xr :=
  match x, y with
  | NaN, _ | _, NaN => NaN
  | Fin a, Fin b => if Req_EM_T b 0 then inf_of_sign a else Fin (a / b)
  | Fin _, _ => Fin 0
  | PInf, Fin b => if Req_EM_T b 0 then PInf else inf_of_sign b
  | MInf, Fin b => if Req_EM_T b 0 then MInf else inf_of_sign (- b)
  | _, _ => NaN
  end.

(** IEEE comparisons: every comparison with NaN is false. *)
Definition xltb (x y : xr) : bool :=
  match x, y with
  | NaN, _ | _, NaN => false
  | Fin a, Fin b => Rltb a b
  | MInf, MInf => false
  | MInf, _ => true
  | _, MInf => false
  | PInf, _ => false
  | _, PInf => true
  end.

Definition xeqb (x y : xr) : bool :=
  match x, y with
  | Fin a, Fin b => Reqb a b
  | PInf, PInf | MInf, MInf => true
  | _, _ => false
  end.

Definition xleb (x y : xr) : bool := xltb x y || xeqb x y.

(** jnp.minimum / jnp.maximum propagate NaN. *)
Definition xmin (x y : xr) : xr :=
  if isnan x then NaN else if isnan y then NaN else if xltb y x then y else x.
Definition xmax (x y : xr) : xr :=
  if isnan x then NaN else if isnan y then NaN else if xltb x y then y else x.

Definition xabs (x : xr) : xr :=
  match x with Fin a => Fin (Rabs a) | PInf | MInf => PInf | NaN => NaN end.

(** jnp.sqrt: NaN on negative input. *)
Definition xsqrt (x : xr) : xr :=
  match x with
  | Fin a => if Rlt_dec a 0 then NaN else Fin (sqrt a)
  | PInf => PInf
  | MInf => NaN
  | NaN => NaN
  end.

Definition xexp (x : xr) : xr :=
  match x with Fin a => Fin (exp a) | PInf => PInf | MInf => Fin 0 | NaN => NaN end.

(** jnp.log: -inf at 0, NaN on negative input. *)
Definition xlog (x : xr) : xr :=
  match x with
  | Fin a => if Rlt_dec 0 a then Fin (ln a) else if Req_EM_T a 0 then MInf else NaN
  | PInf => PInf
  | MInf => NaN
  | NaN => NaN
  end.

Definition xsum (l : list xr) : xr := fold_right xadd (Fin 0) l.

(** ** Basic facts *)
Lemma Rltb_true a b : Rltb a b = true <-> a < b.
Proof. unfold Rltb; destruct (Rlt_dec a b); split; intros; auto; discriminate. Qed.
Lemma Rltb_false a b : Rltb a b = false <-> b <= a.
Proof. unfold Rltb; destruct (Rlt_dec a b); split; intros; auto; try discriminate; lra. Qed.
Lemma Rleb_true a b : Rleb a b = true <-> a <= b.
Proof. unfold Rleb; destruct (Rle_dec a b); split; intros; auto; discriminate. Qed.
Lemma Rleb_false a b : Rleb a b = false <-> b < a.
Proof. unfold Rleb; destruct (Rle_dec a b); split; intros; auto; try discriminate; lra. Qed.
Lemma Reqb_true a b : Reqb a b = true <-> a = b.
Proof. unfold Reqb; destruct (Req_EM_T a b); split; intros; auto; discriminate. Qed.
Lemma Reqb_false a b : Reqb a b = false <-> a <> b.
Proof. unfold Reqb; destruct (Req_EM_T a b); split; intros; auto; try discriminate; contradiction. Qed.

Lemma xadd_nan_l y : xadd NaN y = NaN. Proof. reflexivity. Qed.
Lemma xadd_nan_r x : xadd x NaN = NaN. Proof. destruct x; reflexivity. Qed.
Lemma xmul_nan_l y : xmul NaN y = NaN. Proof. reflexivity. Qed.
Lemma xmul_nan_r x : xmul x NaN = NaN. Proof. destruct x; reflexivity. Qed.
Lemma xdiv_nan_l y : xdiv NaN y = NaN. Proof. destruct y; reflexivity. Qed.
Lemma xdiv_nan_r x : xdiv x NaN = NaN. Proof. destruct x; reflexivity. Qed.
Lemma xmin_nan_l y : xmin NaN y = NaN. Proof. reflexivity. Qed.
Lemma xmin_nan_r x : xmin x NaN = NaN. Proof. destruct x; reflexivity. Qed.
Lemma xltb_nan_l y : xltb NaN y = false. Proof. reflexivity. Qed.
Lemma xltb_nan_r x : xltb x NaN = false. Proof. destruct x; reflexivity. Qed.

Lemma xdiv_fin a b : b <> 0 -> xdiv (Fin a) (Fin b) = Fin (a / b).
Proof. intros H; simpl; destruct (Req_EM_T b 0); [contradiction|reflexivity]. Qed.
Lemma xsqrt_fin a : 0 <= a -> xsqrt (Fin a) = Fin (sqrt a).
Proof. intros H; simpl; destruct (Rlt_dec a 0); [lra|reflexivity]. Qed.
Lemma xdiv_0_0 : xdiv (Fin 0) (Fin 0) = NaN.
Proof.
  simpl; destruct (Req_EM_T 0 0) as [_|n]; [|contradiction n; reflexivity].
  unfold inf_of_sign. destruct (Rlt_dec 0 0); [lra|reflexivity].
Qed.

Lemma xltb_irrefl x : xltb x x = false.
Proof. destruct x; try reflexivity. simpl. apply Rltb_false; lra. Qed.

Lemma xltb_trans x y z : xltb x y = true -> xltb y z = true -> xltb x z = true.
Proof.
  destruct x, y, z; simpl; try discriminate; auto.
  rewrite !Rltb_true; lra.
Qed.

Lemma xltb_not_gt x y : xltb x y = true -> xltb y x = false.
Proof.
  intros H. destruct (xltb y x) eqn:E; [|reflexivity].
  pose proof (xltb_trans _ _ _ H E) as C. rewrite xltb_irrefl in C; discriminate.
Qed.

(** "y is not below x" composes, for non-NaN values. *)
Lemma xnlt_trans x y z :
  isnan y = false -> xltb y x = false -> xltb z y = false -> xltb z x = false.
Proof.
  destruct x, y, z; simpl; try discriminate; auto.
  rewrite !Rltb_false; lra.
Qed.

Lemma xlt_nlt_trans x y z :
  isnan z = false -> xltb x y = true -> xltb z y = false -> xltb x z = true.
Proof.
  destruct x, y, z; simpl; try discriminate; auto.
  rewrite !Rltb_true, !Rltb_false; lra.
Qed.

Lemma xsum_map_fin l : xsum (map Fin l) = Fin (fold_right Rplus 0 l).
Proof.
  induction l as [|a l IH]; [reflexivity|].
  change (xsum (map Fin (a :: l))) with (xadd (Fin a) (xsum (map Fin l))). rewrite IH; reflexivity.
Qed.

Lemma xsum_nan l : In NaN l -> xsum l = NaN.
Proof.
  induction l as [|a l IH]; [intros []|].
  change (xsum (a :: l)) with (xadd a (xsum l)).
  intros [->|H]; [reflexivity|]. rewrite IH by assumption. apply xadd_nan_r.
Qed.
