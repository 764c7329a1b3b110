(** M_fsign: making functions odd or even in their inputs, on machine floating-point numbers.

    Models, on the floating-point numbers of M_float (any format, rounding to nearest even, subnormal numbers kept):
    - vmcnet/models/sign_symmetry.py:18-27 [_get_sign_array_1d], :43-73 [_get_sign_orbit_single_array], :114-152 [_get_sign_orbit_for_list], :167-217 [apply_sign_symmetry_to_fn],
      :220-221 [_multiply_sign_along_axis], :250-273 [make_array_list_fn_sign_covariant], :276-299 [make_array_list_fn_sign_invariant].

    Simplifications.  An input array is the list of its entries, and one entry of the output is followed.  The function treats the axis of the symmetries as a batch axis (the docstring's requirement):
    it is applied to each symmetry alone.  The signs are integers; multiplying by one converts it to the number 1 or -1.
    jnp.stack raises an error if there are no inputs: the theorems have at least one. *)
From Coq Require Import ZArith Reals.
From Flocq Require Import Core IEEE754.BinarySingleNaN.
From Coq Require Import Lia List Bool Arith.
Import ListNotations.
From Verif Require Import M_float.

(** sign_symmetry.py:18-27: -1 to the power of bit [i] of [k]. *)
Definition sign_1d (i k : nat) : Z := if Nat.testbit k i then (-1)%Z else 1%Z.
(** sign_symmetry.py:150-151: the product of the signs of the [n] inputs in symmetry [k]. *)
Definition combined_sign (n k : nat) : Z := fold_right Z.mul 1%Z (map (fun i => sign_1d i k) (seq 0 n)).

Section Sign.
Variables prec emax : Z.
Context {Hp : Prec_gt_0 prec}.
Context {He : Prec_lt_emax prec emax}.
Notation fl := (binary_float prec emax).

(** The promotion of an integer sign. *)
Definition of_sign (s : Z) : fl := if (s <? 0)%Z then Bopp (fone prec emax) else fone prec emax.
(** sign_symmetry.py:73, 147-149: symmetry [k] of the inputs, the first of which has number [i]. *)
Fixpoint orbit_from (i : nat) (xs : list (list fl)) (k : nat) : list (list fl) :=
  match xs with [] => [] | x :: r => map (fmul prec emax (of_sign (sign_1d i k))) x :: orbit_from (S i) r k end.
Definition orbit (xs : list (list fl)) (k : nat) : list (list fl) := orbit_from 0 xs k.

(** jnp.sum. *)
Variable fsum : list fl -> fl.
(** sign_symmetry.py:211-215 with the arguments of 268-273. *)
Definition sign_covariant (f : list (list fl) -> fl) (xs : list (list fl)) : fl :=
  let n := length xs in fsum (map (fun k => fmul prec emax (of_sign (combined_sign n k)) (f (orbit xs k))) (seq 0 (2 ^ n))).
(** sign_symmetry.py:211-215 with the arguments of 294-299. *)
Definition sign_invariant (f : list (list fl) -> fl) (xs : list (list fl)) : fl :=
  let n := length xs in fsum (map (fun k => f (orbit xs k)) (seq 0 (2 ^ n))).
End Sign.
