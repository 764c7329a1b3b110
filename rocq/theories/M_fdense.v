(** M_fdense: linear layers in the log domain on machine floating-point numbers.

    Models, on the floating-point numbers of M_float (any format, rounding to nearest even, subnormal numbers kept):
    - vmcnet/utils/log_linear_exp.py:9-60 [log_linear_exp] with weights;
    - vmcnet/models/core.py:245-292 [LogDomainDense].

    Simplifications.  One slice (a vector of signed logs) is followed; the kernel is given by its columns.  jnp.dot multiplies and then adds in any order, as jnp.sum does
    (M_float, [is_sum]); products are rounded (no fused multiply-add). *)
From Coq Require Import ZArith Reals.
From Flocq Require Import Core IEEE754.BinarySingleNaN.
From Coq Require Import Lia List Bool Arith.
Import ListNotations.
From Verif Require Import M_float.

Section Dense.
Variables prec emax : Z.
Context {Hp : Prec_gt_0 prec}.
Context {He : Prec_lt_emax prec emax}.
Notation fl := (binary_float prec emax).
(** jnp.exp, jnp.log and the sum inside jnp.dot. *)
Variables (fexp flog : fl -> fl) (fsum : list fl -> fl).

(** log_linear_exp.py:43-48: one term of the contraction with one column, after division by the largest exponential. *)
Definition weighted_term (m : fl) (xw : (fl * fl) * fl) : fl := fmul prec emax (scaled_term prec emax fexp m (fst xw)) (snd xw).
(** log_linear_exp.py:48, 58-59: one column. *)
Definition column_output (m : fl) (xs : list (fl * fl)) (ws : list fl) : fl * fl :=
  let s := fsum (map (weighted_term m) (combine xs ws)) in (fsign prec emax s, fadd prec emax (flog (Babs s)) m).
(** log_linear_exp.py:42-60.  [None]: the error of jnp.max on an empty axis or of jnp.dot on shapes that do not match. *)
Definition log_linear_exp_weights (columns : list (list fl)) (xs : list (fl * fl)) : option (list (fl * fl)) :=
  match fmaximum prec emax (map snd xs) with
  | None => None
  | Some m => if forallb (fun ws => length ws =? length xs) columns then Some (map (column_output m xs) columns) else None
  end.

(** core.py:276-283: the inputs are extended with a one.  [sign_x[..., 0:1]] is empty if there are no inputs, and then nothing is added. *)
Definition with_one (use_bias : bool) (xs : list (fl * fl)) : list (fl * fl) :=
  if use_bias then match xs with [] => [] | _ => xs ++ [(fone prec emax, fzero prec emax)] end else xs.
(** core.py:262-292. *)
Definition log_domain_dense (use_bias : bool) (columns : list (list fl)) (xs : list (fl * fl)) : option (list (fl * fl)) :=
  log_linear_exp_weights columns (with_one use_bias xs).
End Dense.
