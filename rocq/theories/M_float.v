(** M_float: signed logs on machine floating-point numbers.

    Models, on IEEE-754 binary floating-point numbers of any precision (Flocq), with rounding to
    nearest even:
    - vmcnet/utils/log_linear_exp.py:9-60 [log_linear_exp] with weights=None;
    - vmcnet/utils/slog_helpers.py:9-19 [array_to_slog], :56-63 [slog_multiply],
      :66-69 [slog_sum_over_axis];
    - vmcnet/models/construct.py:1009-1022, the tail of FermiNet that multiplies the spin
      determinants in signed-log form and sums over the determinants
      (vmcnet/models/antisymmetry.py [slogdet_product]).

    Simplifications.  One slice of the arrays along the summed axis is a list.  The order in which
    jnp.sum adds is chosen by the compiler: it is a parameter, any tree of additions
    ([is_sum]).  jnp.exp and jnp.log are parameters; what is assumed about them is in S_float.
    Subnormal numbers are kept (no flush to zero). *)
From Coq Require Import ZArith Reals.
From Flocq Require Import Core IEEE754.BinarySingleNaN.
From Coq Require Import Lia List Permutation.
Import ListNotations.

Section Float.
Variables prec emax : Z.
Context {Hp : Prec_gt_0 prec}.
Context {He : Prec_lt_emax prec emax}.

Notation fl := (binary_float prec emax).

(** The two constants jnp.sign returns besides zeros, the sum's initial value and the maximum's
    initial value (jax reductions; jnp.sum starts at +0, jnp.max at -inf). *)
Definition fone : fl := Bone.
Definition fzero : fl := B754_zero false.
Definition fminf : fl := B754_infinity true.

(** Rounding to nearest even, the mode of every jax backend. *)
Definition fadd : fl -> fl -> fl := Bplus mode_NE.
Definition fsub : fl -> fl -> fl := Bminus mode_NE.
Definition fmul : fl -> fl -> fl := Bmult mode_NE.

(** jnp.maximum, which propagates NaN (log_linear_exp.py:42). *)
Definition fmax (x y : fl) : fl :=
  if is_nan x then x else if is_nan y then y else if Bleb x y then y else x.

(** jnp.max(vals, axis) on one slice (log_linear_exp.py:42): a fold from -inf.  [None] is the
    error jnp.max raises on an empty axis. *)
Definition fmaximum (l : list fl) : option fl :=
  match l with [] => None | _ => Some (fold_right fmax fminf l) end.

(** jnp.sign: NaN and zeros are returned unchanged (log_linear_exp.py:58, slog_helpers.py:18). *)
Definition fsign (x : fl) : fl :=
  match x with
  | B754_nan => B754_nan
  | B754_zero s => B754_zero s
  | B754_infinity s => if s then Bopp fone else fone
  | B754_finite s _ _ _ => if s then Bopp fone else fone
  end.

(** A way to add up numbers: a tree of additions. *)
Inductive tree := Leaf (x : fl) | Node (a b : tree).
Fixpoint leaves (t : tree) : list fl :=
  match t with Leaf x => [x] | Node a b => leaves a ++ leaves b end.
Fixpoint eval (t : tree) : fl :=
  match t with Leaf x => x | Node a b => fadd (eval a) (eval b) end.

(** [s] is a result jnp.sum may return for the terms [l]: the compiler adds the terms, and any
    number of initial zeros, in any order and grouping (log_linear_exp.py:54-56). *)
Definition is_sum (l : list fl) (s : fl) : Prop :=
  exists t k, Permutation (leaves t) (l ++ repeat fzero k) /\ eval t = s.

Section Functions.
(** jnp.exp, jnp.log and jnp.sum. *)
Variables (fexp flog : fl -> fl) (fsum : list fl -> fl).

(** slog_helpers.py:9-19. *)
Definition array_to_slog (x : fl) : fl * fl := (fsign x, flog (Babs x)).

(** log_linear_exp.py:42-60 with weights=None on one slice; the pairs are (sign, val). *)
Definition scaled_term (m : fl) (x : fl * fl) : fl := fmul (fst x) (fexp (fsub (snd x) m)).
Definition log_linear_exp (xs : list (fl * fl)) : option (fl * fl) :=
  match fmaximum (map snd xs) with
  | None => None
  | Some m =>
      let s := fsum (map (scaled_term m) xs) in
      Some (fsign s, fadd (flog (Babs s)) m)
  end.

(** slog_helpers.py:66-69: squeezing the summed axis does nothing to one slice. *)
Definition slog_sum_over_axis (xs : list (fl * fl)) : option (fl * fl) := log_linear_exp xs.

(** slog_helpers.py:56-63. *)
Definition slog_multiply (x y : fl * fl) : fl * fl := (fmul (fst x) (fst y), fadd (snd x) (snd y)).

(** antisymmetry.py [slogdet_product]: functools.reduce(slog_multiply, slogdets), on one
    determinant; the list holds what jnp.linalg.slogdet returned for each spin.  [None] is the
    TypeError of reduce on an empty list. *)
Definition slogdet_product (ds : list (fl * fl)) : option (fl * fl) :=
  match ds with [] => None | d :: r => Some (fold_left slog_multiply r d) end.

(** construct.py:1020-1022: the products over the spins, summed over the determinants. *)
Fixpoint products (dets : list (list (fl * fl))) : option (list (fl * fl)) :=
  match dets with
  | [] => Some []
  | d :: r => match slogdet_product d, products r with Some p, Some q => Some (p :: q) | _, _ => None end
  end.
Definition determinant_sum (dets : list (list (fl * fl))) : option (fl * fl) :=
  match products dets with Some ps => slog_sum_over_axis ps | None => None end.
End Functions.
End Float.
