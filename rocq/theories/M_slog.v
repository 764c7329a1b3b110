(** * Model of the sign-log number format and of the dense layers
    (vmcnet/utils/slog_helpers.py, vmcnet/utils/log_linear_exp.py, vmcnet/models/core.py 171-425)

    A sign-log value is a pair (sign, log|.|).  Numbers are extended reals (XReal.v): finite
    arithmetic is exact, NaN and the infinities behave as in IEEE.  Arrays are lists along the
    axis a function works on; batch axes are handled one batch element at a time (the code
    applies the same computation to every batch element). *)
From Coq Require Import Reals List Bool Arith.
From Verif Require Import XReal.
Import ListNotations.
Local Open Scope R_scope.

Notation slog := (xr * xr)%type.

(** jnp.sign. *)
Definition xsign (x : xr) : xr :=
  match x with
  | Fin a => Fin (if Rlt_dec 0 a then 1 else if Rlt_dec a 0 then -1 else 0)
  | PInf => Fin 1
  | MInf => Fin (-1)
  | NaN => NaN
  end.

(** slog_helpers.py 9-18: array_to_slog, one entry. *)
Definition array_to_slog (x : xr) : slog := (xsign x, xlog (xabs x)).

(** slog_helpers.py 21-32: array_from_slog, one entry. *)
Definition array_from_slog (x : slog) : xr := xmul (fst x) (xexp (snd x)).

(** slog_helpers.py 59-66: slog_multiply, one entry. *)
Definition slog_multiply (x y : slog) : slog := (xmul (fst x) (fst y), xadd (snd x) (snd y)).

(** jnp.max over a non-empty axis; NaN propagates. *)
Definition xmax_list (a : xr) (l : list xr) : xr := fold_left xmax l a.

(** A column of a weight matrix given as a function of (input index, output index). *)
Definition weighted_sum (w : nat -> xr) (l : list xr) : xr :=
  xsum (map (fun p => xmul (snd p) (w (fst p))) (combine (seq 0 (length l)) l)).

(** log_linear_exp.py 44-45: the maximum and the terms divided by it.  [None]: jnp.max over
    an empty axis raises ValueError. *)
Definition terms_divided_by_max (x : list slog) : option (xr * list xr) :=
  match map snd x with
  | [] => None
  | v :: vs => let m := xmax_list v vs in Some (m, map (fun p => xmul (fst p) (xexp (xsub (snd p) m))) x)
  end.

(** log_linear_exp.py 58-60: back to sign-log form, adding the maximum again. *)
Definition from_divided (m t : xr) : slog := (xsign t, xadd (xlog (xabs t)) m).

(** log_linear_exp.py 9-60 with weights = None. *)
Definition log_linear_exp (x : list slog) : option slog :=
  match terms_divided_by_max x with
  | None => None
  | Some (m, ts) => Some (from_divided m (xsum ts))
  end.

(** log_linear_exp.py 9-60 with a weight matrix of [features] columns. *)
Definition log_linear_exp_weights (w : nat -> nat -> xr) (features : nat) (x : list slog) : option (list slog) :=
  match terms_divided_by_max x with
  | None => None
  | Some (m, ts) => Some (map (fun f => from_divided m (weighted_sum (fun i => w i f) ts)) (seq 0 features))
  end.

(** slog_helpers.py 69-72: slog_sum_over_axis. *)
Definition slog_sum_over_axis (x : list slog) : option slog := log_linear_exp x.

(** slog_helpers.py 75-78: slog_array_list_sum, one entry. *)
Definition slog_array_list_sum (x : list slog) : option slog := slog_sum_over_axis x.

(** slog_helpers.py 81-83: slog_sum. *)
Definition slog_sum (x y : slog) : option slog := slog_array_list_sum [x; y].

(** models/core.py 171-211: Dense on one row.  The kernel is a function of (input, output)
    index; [None] for the bias when use_bias is False. *)
Definition dense (features : nat) (kernel : nat -> nat -> xr) (bias : option (nat -> xr)) (x : list xr) : list xr :=
  map (fun f => let y := weighted_sum (fun i => kernel i f) x in
                match bias with None => y | Some b => xadd y (b f) end) (seq 0 features).

(** models/core.py 245-292: LogDomainDense on one row; with a bias the input gets one more
    entry with sign 1 and log 0, so that the last kernel row is the bias. *)
Definition log_domain_dense (features : nat) (kernel : nat -> nat -> xr) (use_bias : bool) (x : list slog) : option (list slog) :=
  log_linear_exp_weights kernel features (if use_bias then x ++ [(Fin 1, Fin 0)] else x).

(** models/core.py 345-361: SimpleResNet.__call__; [inner] lists the inner dense layers
    (kernel, bias), the final layer has no bias.  _valid_skip (112-113) compares widths. *)
Definition resnet_layer (ndense : nat) (act : xr -> xr) (x : list xr) (layer : (nat -> nat -> xr) * option (nat -> xr)) : list xr :=
  let y := map act (dense ndense (fst layer) (snd layer) x) in
  if Nat.eqb (length x) (length y) then map (fun p => xadd (fst p) (snd p)) (combine y x) else y.
Definition simple_resnet (ndense_inner ndense_final : nat) (act : xr -> xr)
    (inner : list ((nat -> nat -> xr) * option (nat -> xr))) (final : nat -> nat -> xr) (x : list xr) : list xr :=
  dense ndense_final final None (fold_left (resnet_layer ndense_inner act) inner x).

(** models/core.py 409-425: LogDomainResNet.__call__; errors propagate. *)
Fixpoint sequence {A} (l : list (option A)) : option (list A) :=
  match l with
  | [] => Some []
  | None :: _ => None
  | Some a :: r => match sequence r with None => None | Some r' => Some (a :: r') end
  end.
Definition log_resnet_layer (ndense : nat) (act : slog -> slog) (use_bias : bool) (x : option (list slog)) (kernel : nat -> nat -> xr) : option (list slog) :=
  match x with
  | None => None
  | Some x =>
      match log_domain_dense ndense kernel use_bias x with
      | None => None
      | Some y0 =>
          let y := map act y0 in
          if Nat.eqb (length x) (length y) then sequence (map (fun p => slog_sum (fst p) (snd p)) (combine y x)) else Some y
      end
  end.
Definition log_domain_resnet (ndense_inner ndense_final : nat) (act : slog -> slog) (use_bias : bool)
    (inner : list (nat -> nat -> xr)) (final : nat -> nat -> xr) (x : list slog) : option (list slog) :=
  match fold_left (log_resnet_layer ndense_inner act use_bias) inner (Some x) with
  | None => None
  | Some y => log_domain_dense ndense_final final false y
  end.
