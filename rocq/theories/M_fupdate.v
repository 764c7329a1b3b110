(** M_fupdate: norm constraints and parameter updates on machine floating-point numbers.

    Models, on the floating-point numbers of M_float (any format, rounding to nearest even, subnormal numbers kept):
    - vmcnet/utils/pytree_helpers.py:33-41 [multiply_tree_by_scalar, tree_inner_product];
    - vmcnet/updates/spring.py:77-92 [constrain_norm] and vmcnet/updates/sr.py:170-188 [constrain_norm];
    - vmcnet/updates/parse_config.py:592-619, the part of the SPRING update after its direction has been computed
      (optax.sgd with momentum 0, norm constraint, optax.apply_updates).

    Simplifications.  A pytree is the list of its leaves, a leaf the list of its entries.  The list of trees holds one tree for every
    device; pmean over the devices is the mean (utils/distribute.py:60 [pmean_if_pmap]), without pmap there is one tree.  jnp.sum is any order of
    additions ([is_sum] of M_float); jnp.sqrt is the correctly rounded square root. *)
From Coq Require Import ZArith Reals.
From Flocq Require Import Core IEEE754.BinarySingleNaN.
From Coq Require Import Lia List Bool Arith.
Import ListNotations.
From Verif Require Import M_float M_fwalk M_fenergy.

Section Update.
Variables prec emax : Z.
Context {Hp : Prec_gt_0 prec}.
Context {He : Prec_lt_emax prec emax}.
Notation fl := (binary_float prec emax).
Notation fadd := (fadd prec emax). Notation fsub := (fsub prec emax). Notation fmul := (fmul prec emax).
Notation fdiv := (fdiv prec emax). Notation fzero := (fzero prec emax). Notation fone := (fone prec emax).
(** jnp.sum. *)
Variable fs : list fl -> fl.

Definition params := list (list fl).

(** pytree_helpers.py:38-41. *)
Definition tree_inner_product (t1 t2 : params) : fl := fs (zip_with (fun a b => fs (zip_with fmul a b)) t1 t2).

(** pytree_helpers.py:33-35. *)
Definition multiply_tree_by_scalar (t : params) (c : fl) : params := map (map (fun x => fmul c x)) t.

(** spring.py:88-89, sr.py:184-185. *)
Definition coefficient (constraint sq : fl) : fl := fmin prec emax (Bsqrt mode_NE (fdiv constraint sq)) fone.

(** spring.py:86, sr.py:182. *)
Definition pmean_if_pmap (pmapped : bool) (l : list fl) : fl := if pmapped then mean prec emax fs l else hd B754_nan l.

(** spring.py:82-92 on all devices. *)
Definition constrain_norm (pmapped : bool) (constraint : fl) (grads : list params) : list params :=
  let sq := pmean_if_pmap pmapped (map (fun t => tree_inner_product t t) grads) in
  map (fun t => multiply_tree_by_scalar t (coefficient constraint sq)) grads.

(** sr.py:177-188 on all devices; the pairs are (gradient, preconditioned gradient). *)
Definition sr_constrain_norm (pmapped : bool) (constraint lr : fl) (grads : list (params * params)) : list params :=
  let sq := pmean_if_pmap pmapped (map (fun t => fmul (tree_inner_product (snd t) (fst t)) (fmul lr lr)) grads) in
  map (fun t => multiply_tree_by_scalar (snd t) (coefficient constraint sq)) grads.

(** One device at the start of SPRING's optimizer_apply: its parameters, direction (grad) and remembered direction (trace). *)
Record device := { d_params : params; d_grad : params; d_trace : params }.

(** optax.trace with decay 0 and optax.scale_by_learning_rate (parse_config.py:592-594, 608-610): the updates before the constraint. *)
Definition new_trace (d : device) : params := zip_with (zip_with (fun g t => fadd g (fmul fzero t))) (d_grad d) (d_trace d).
Definition raw_updates (lr : fl) (d : device) : params := map (map (fun g => fmul (Bopp lr) g)) (new_trace d).

(** parse_config.py:608-619 on all devices: new parameters and new remembered direction. *)
Definition spring_apply (pmapped : bool) (constraint : option fl) (lr : fl) (ds : list device) : list (params * params) :=
  let updates := map (raw_updates lr) ds in
  let constrained := match constraint with Some c => constrain_norm pmapped c updates | None => updates end in
  zip_with (fun d up => (zip_with (zip_with fadd) (d_params d) up, new_trace d)) ds constrained.
End Update.
