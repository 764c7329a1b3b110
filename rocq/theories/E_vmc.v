(** * A concrete run used to show that the hypotheses of the loop theorems can be met.

    The walker data is a step counter; the update reports an energy taken from a given stream. *)
From Coq Require Import List String Arith Bool Reals Lra Lia.
From Verif Require Import XReal M_io M_vmc M_files S_vmc S_files P_vmc2 P_running.
Import ListNotations.
Local Open Scope string_scope.

Definition toy_walker (p : unit) (d : nat) (k : unit) : xr * nat * unit := (Fin 1, d, k).
Definition toy_metrics (e v : xr) : dict :=
  [("energy", e); ("variance", v); ("energy_noclip", e); ("variance_noclip", v)].
(** Energy stream [es], variance 1. *)
Definition toy_update (es : nat -> xr) (p : unit) (d : nat) (s : unit) (k : unit)
  : unit * nat * unit * option dict * unit :=
  (p, S d, s, Some (toy_metrics (es d) (Fin 1)), k).
Definition toy_nan (p : unit) : bool := false.

Definition toy_cfg (every best : option nat) (nans : bool) (nh : nat) : cfg nat :=
  {| logdir := Some "log"; checkpoint_every := every; best_checkpoint_every := best;
     checkpoint_dir := "checkpoints"; variance_scale := 0; check_for_nans := nans;
     record_amplitudes := false; get_amplitude_fn := None; nchains := 10; nhistory_max := nh |}.

Lemma toy_complete es : metrics_complete (toy_update es).
Proof.
  intros p d s k m H. simpl in H. injection H as <-. repeat split; eexists; reflexivity.
Qed.
Lemma toy_dicts es : dicts_only (toy_update es).
Proof.
  intros p d s k m H. simpl in H. injection H as <-. unfold is_dict. simpl.
  repeat constructor; simpl; intuition discriminate.
Qed.
Lemma toy_valid every best nans nh :
  every <> Some 0 -> best <> Some 0 -> valid_cfg (toy_cfg every best nans nh).
Proof. intros. split; [assumption|]. split; [assumption|]. discriminate. Qed.
Lemma toy_state es n : state_after toy_walker (toy_update es) n (tt, tt, 0, tt) = (tt, tt, n, tt).
Proof.
  unfold state_after. induction n as [|n IH]; [reflexivity|]. simpl. rewrite IH. reflexivity.
Qed.
Lemma toy_energy es n :
  mval toy_walker (toy_update es) "energy" (state_after toy_walker (toy_update es) n (tt, tt, 0, tt)) = es n.
Proof. rewrite toy_state. reflexivity. Qed.
Lemma toy_variance es n :
  mval toy_walker (toy_update es) "variance" (state_after toy_walker (toy_update es) n (tt, tt, 0, tt)) = Fin 1.
Proof. rewrite toy_state. reflexivity. Qed.
Lemma toy_recorded es r : recorded toy_walker (toy_update es) (tt, tt, 0, tt) r = seq 0 r.
Proof.
  unfold recorded. induction (seq 0 r) as [|i l IH]; [reflexivity|].
  cbn [filter]. rewrite IH. unfold has_metrics. rewrite toy_state. reflexivity.
Qed.

(** The stream 5, NaN, 1, 1, ... *)
Definition nan_stream (n : nat) : xr := match n with 0 => Fin 5 | 1 => NaN | _ => Fin 1 end.

(** A run in which the best checkpoint is written twice: energies 1, 0. *)
Definition two_stream (n : nat) : xr := if Nat.eqb n 0 then Fin 1 else Fin 0.
Definition toy_ckpt (e : nat) : ckpt unit nat unit unit :=
  {| c_epoch := e; c_data := e; c_params := tt; c_opt := tt; c_key := tt |}.
Lemma toy_two_best :
  exists p o d k b me,
  vmc_loop toy_walker (toy_update two_stream) toy_nan (toy_cfg None (Some 1) false 2) 0 2 tt tt 0 tt =
  Finished p o d k b
      [("log", "best_checkpoint.npz", toy_ckpt 0); ("log", "best_checkpoint.npz", toy_ckpt 1)] me.
Proof.
  do 6 eexists.
  assert (H1 : move_history_window 2 running_init (Fin 1) = {| avg := Fin 1; history := [Fin 1] |}).
  { change (move_history_window 2 running_init (Fin 1)) with (tracked 2 (map Fin [1%R])).
    rewrite tracked_fin by lia. cbn. f_equal. f_equal. unfold rmean, rsum. cbn. field. }
  assert (H2 : move_history_window 2 {| avg := Fin 1; history := [Fin 1] |} (Fin 1)
               = {| avg := Fin 1; history := [Fin 1] |}).
  { rewrite <- H1 at 1.
    change (move_history_window 2 (move_history_window 2 running_init (Fin 1)) (Fin 1))
      with (tracked 2 (map Fin [1%R; 1%R])).
    rewrite tracked_fin by lia. cbn. f_equal. f_equal. unfold rmean, rsum. cbn. field. }
  assert (H3 : move_history_window 2 {| avg := Fin 1; history := [Fin 1] |} (Fin 0)
               = {| avg := Fin 0; history := [Fin 0] |}).
  { rewrite <- H1 at 1.
    change (move_history_window 2 (move_history_window 2 running_init (Fin 1)) (Fin 0))
      with (tracked 2 (map Fin [1%R; 0%R])).
    rewrite tracked_fin by lia. cbn. f_equal. f_equal. unfold rmean, rsum. cbn. field. }
  assert (H0 : forall e v n, get_checkpoint_metric e v n 0 = e).
  { intros. unfold get_checkpoint_metric. assert (Rleb 0 0 = true) as -> by (apply Rleb_true; lra). reflexivity. }
  assert (H4 : xltb (Fin 0) (xmin (Fin 1) PInf) = true).
  { cbn. apply Rltb_true. lra. }
  lazy -[move_history_window get_checkpoint_metric xltb xmin running_init avg history List.length INR IZR Nat.mul].
  rewrite H1. cbn [avg history]. rewrite !H0. cbn [xltb].
  lazy -[move_history_window get_checkpoint_metric xltb xmin running_init avg history List.length INR IZR Nat.mul].
  rewrite H2, H3. cbn [avg history]. rewrite !H0. rewrite H4. cbv iota.
  lazy -[move_history_window get_checkpoint_metric xltb xmin running_init avg history List.length INR IZR Nat.mul].
  reflexivity.
Qed.
