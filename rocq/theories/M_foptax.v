(** M_foptax: learning-rate schedules, SGD with momentum and Adam on machine floating-point numbers.

    Models, on the floating-point numbers of M_float (any format, rounding to nearest even, subnormal numbers kept):
    - vmcnet/updates/parse_config.py:37-59 [_get_learning_rate_schedule];
    - vmcnet/updates/parse_config.py:274-295 [_get_adam_optax_optimizer, _get_sgd_optax_optimizer] and 308-322 (the step that
      [_get_optax_update_fn_and_state] builds from them).

    Simplifications.  optax works entry by entry: one entry of the parameters is followed through a whole run, given the entry of the gradient in
    every epoch.  optax (third-party) is modelled from its definitions as in M_optax.  jnp.power with an integer exponent is a parameter.  The
    numbers of the configuration, and 1 - b1 and 1 - b2 (computed by Python in double precision), are given as already rounded.  Epoch counters do not wrap
    around or saturate. *)
From Coq Require Import ZArith Reals.
From Flocq Require Import Core IEEE754.BinarySingleNaN.
From Coq Require Import Lia List Bool Arith.
Import ListNotations.
From Verif Require Import M_float M_fwalk.

Section Optax.
Variables prec emax : Z.
Context {Hp : Prec_gt_0 prec}.
Context {He : Prec_lt_emax prec emax}.
Notation fl := (binary_float prec emax).
Notation fadd := (fadd prec emax). Notation fsub := (fsub prec emax). Notation fmul := (fmul prec emax).
Notation fdiv := (fdiv prec emax). Notation fzero := (fzero prec emax). Notation fone := (fone prec emax). Notation of_nat := (of_nat prec emax).
(** jnp.power. *)
Variable fpow : fl -> nat -> fl.

(** parse_config.py:37-59. *)
Inductive schedule := Constant (learning_rate : fl) | InverseTime (learning_rate learning_decay_rate : fl).
Definition rate (s : schedule) (t : nat) : fl :=
  match s with
  | Constant lr => lr                                                              (* 42-43 *)
  | InverseTime lr decay => fdiv lr (fadd fone (fmul decay (of_nat t)))            (* 47-50 *)
  end.

(** parse_config.py:274-284; the [_c] are 1 minus b1 and b2. *)
Record adam_numbers := { b1 : fl; b1_c : fl; b2 : fl; b2_c : fl; eps : fl; eps_root : fl }.

(** parse_config.py:278-284, 291-295: momentum 0 is passed on as None. *)
Inductive optimiser := Sgd | Momentum (momentum : fl) (nesterov : bool) | Adam (c : adam_numbers).

(** The part of optax's state that belongs to one entry: the trace of SGD or the two moments of Adam; and the number of steps taken. *)
Record state := { count : nat; trace : fl; mu : fl; nu : fl }.
Definition initial : state := {| count := 0; trace := fzero; mu := fzero; nu := fzero |}.

(** optax.trace. *)
Definition trace_update (m g t : fl) : fl := fadd g (fmul m t).
(** optax.scale_by_adam: moments, bias corrections, quotient. *)
Definition moment_update (c b x t : fl) : fl := fadd (fmul c x) (fmul b t).
Definition bias_correction (b x : fl) (n : nat) : fl := fdiv x (fsub fone (fpow b n)).
Definition adam_direction (c : adam_numbers) (m v : fl) (n : nat) : fl :=
  fdiv (bias_correction (b1 c) m n) (fadd (Bsqrt mode_NE (fadd (bias_correction (b2 c) v n) (eps_root c))) (eps c)).

Definition direction (o : optimiser) (s : state) (g : fl) : fl * state :=
  match o with
  | Sgd => (g, {| count := S (count s); trace := trace s; mu := mu s; nu := nu s |})
  | Momentum m nesterov =>
      let t := trace_update m g (trace s) in
      (if nesterov then trace_update m g t else t, {| count := S (count s); trace := t; mu := mu s; nu := nu s |})
  | Adam c =>
      let m := moment_update (b1_c c) (b1 c) g (mu s) in
      let v := moment_update (b2_c c) (b2 c) (fmul g g) (nu s) in
      (adam_direction c m v (S (count s)), {| count := S (count s); trace := trace s; mu := m; nu := v |})
  end.

(** optax.scale_by_learning_rate and optax.apply_updates (parse_config.py:319-320). *)
Definition update (o : optimiser) (sch : schedule) (s : state) (g : fl) : fl := fmul (Bopp (rate sch (count s))) (fst (direction o s g)).
Definition step (o : optimiser) (sch : schedule) (ps : fl * state) (g : fl) : fl * state :=
  (fadd (fst ps) (update o sch (snd ps) g), snd (direction o (snd ps) g)).
(** A run: the entry and the state after the given gradients. *)
Definition run (o : optimiser) (sch : schedule) (ps : fl * state) (gs : list fl) : fl * state := fold_left (step o sch) gs ps.
End Optax.
