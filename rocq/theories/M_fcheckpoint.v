(** M_fcheckpoint: running averages and the choice of the best checkpoint on machine floating-point numbers.

    Models, on the floating-point numbers of M_float (any format, rounding to nearest even, subnormal numbers kept):
    - vmcnet/utils/checkpoint.py:35-74 [RunningMetric];
    - vmcnet/utils/checkpoint.py:265-295 [get_checkpoint_metric];
    - vmcnet/utils/checkpoint.py:201-233 [initialize_checkpointing] (metric, windows, pending checkpoint);
    - vmcnet/utils/checkpoint.py:460-549 [track_and_save_best_checkpoint], with best_checkpoint_every given, and 453-458 of
      [save_metrics_and_handle_checkpoints].

    Simplifications.  What a checkpoint holds is one value of a type [A].  The number of effective samples, nsamples / variance_scale
    (294), is a function of nsamples, None if the variance is not used (291-292).  jnp.sqrt is the correctly rounded square root.  best_checkpoint_every is at least
    1 (Python raises on a modulus of 0; here it then never saves before the end).
    Everything else of the loop is in M_vmc, on exact numbers. *)
From Coq Require Import ZArith Reals.
From Flocq Require Import Core IEEE754.BinarySingleNaN.
From Coq Require Import Lia List Bool Arith.
Import ListNotations.
From Verif Require Import M_float M_fwalk M_fenergy.

Section Checkpoint.
Variables prec emax : Z.
Context {Hp : Prec_gt_0 prec}.
Context {He : Prec_lt_emax prec emax}.
Notation fl := (binary_float prec emax).
Notation fadd := (fadd prec emax). Notation fsub := (fsub prec emax). Notation fmul := (fmul prec emax).
Notation fdiv := (fdiv prec emax). Notation of_nat := (of_nat prec emax). Notation fzero := (fzero prec emax).

(** checkpoint.py:35-51. *)
Record running := { r_avg : fl; r_history : list fl }.
Definition empty_running : running := {| r_avg := fzero; r_history := [] |}.

(** checkpoint.py:53-74. *)
Definition move_window (nhistory_max : nat) (r : running) (x : fl) : running :=
  match nhistory_max with
  | O => r                                                              (* 59-60 *)
  | _ =>
      let h := length (r_history r) in
      let hist := r_history r ++ [x] in                                 (* 63 *)
      let sum := fadd (fmul (of_nat h) (r_avg r)) x in                  (* 65-66 *)
      match (if Nat.leb nhistory_max (S h) then hist else []) with
      | old :: rest => {| r_avg := fdiv (fsub sum old) (of_nat h); r_history := rest |}   (* 69-74 *)
      | [] => {| r_avg := fdiv sum (of_nat (S h)); r_history := hist |}                   (* 74 *)
      end
  end.

(** checkpoint.py:265-295. *)
Definition checkpoint_metric (effective : option (nat -> fl)) (e v : fl) (nsamples : nat) : fl :=
  match effective, nsamples with
  | Some f, S _ => fadd e (Bsqrt mode_NE (fdiv v (f nsamples)))
  | _, _ => e
  end.

Section Tracking.
Context {A : Type}.
Variables (nhistory_max nchains : nat) (effective : option (nat -> fl)) (every : nat).
(** The running windows, the smallest metric so far, the pending best checkpoint, and the last one written. *)
Record tracker := { t_energy : running; t_variance : running; t_metric : fl; t_best : option A; t_file : option A }.

(** checkpoint.py:217-225. *)
Definition start_tracking : tracker :=
  {| t_energy := empty_running; t_variance := empty_running; t_metric := B754_infinity false; t_best := None; t_file := None |}.

(** checkpoint.py:521-549, 453-454: epoch [epoch] with checkpoint [a] and metrics [e], [v]. *)
Definition track (t : tracker) (epoch : nat) (a : A) (e v : fl) : tracker :=
  let en := move_window nhistory_max (t_energy t) e in
  let va := move_window nhistory_max (t_variance t) v in
  let err := checkpoint_metric effective (r_avg en) (r_avg va) (nchains * length (r_history en)) in
  let best := if Bltb err (t_metric t) then Some a else t_best t in
  let save := Nat.eqb (Nat.modulo (epoch + 1) every) 0 in
  {| t_energy := en; t_variance := va;
     t_metric := fmin prec emax err (t_metric t);
     t_best := if save then None else best;
     t_file := match save, best with true, Some b => Some b | _, _ => t_file t end |}.

(** Epochs [epoch], [epoch + 1], ... *)
Fixpoint track_all (t : tracker) (epoch : nat) (l : list (A * fl * fl)) : tracker :=
  match l with
  | [] => t
  | (a, e, v) :: l' => track_all (track t epoch a e v) (S epoch) l'
  end.

(** checkpoint.py:236-245: at the end the pending checkpoint is written. *)
Definition finish (t : tracker) : option A := match t_best t with Some b => Some b | None => t_file t end.
End Tracking.
End Checkpoint.
