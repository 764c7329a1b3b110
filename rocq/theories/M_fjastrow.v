(** M_fjastrow: decaying Jastrow factors on machine floating-point numbers.

    Models, on the floating-point numbers of M_float (any format, rounding to nearest even, subnormal numbers kept):
    - vmcnet/models/jastrow.py:65-130 [OneBodyExpDecay] with 15-31 [_isotropy_on_leaf];
    - vmcnet/models/jastrow.py:274-332 [BackflowJastrow].

    Simplifications.  One walker.  jnp.sum is any order of additions ([is_sum] of M_float); jnp.sqrt (in jnp.linalg.norm) is the correctly rounded square root.  The output of the backflow is a
    parameter. *)
From Coq Require Import ZArith Reals.
From Flocq Require Import Core IEEE754.BinarySingleNaN.
From Coq Require Import Lia List Bool Arith.
Import ListNotations.
From Verif Require Import M_float M_fwalk M_fenergy M_forbital.

Section Jastrow.
Variables prec emax : Z.
Context {Hp : Prec_gt_0 prec}.
Context {He : Prec_lt_emax prec emax}.
Notation fl := (binary_float prec emax).
(** jnp.exp and jnp.sum. *)
Variables (fexp : fl -> fl) (fsum : list fl -> fl).

(** jastrow.py:127-130, 329-332: the log Jastrow or its exponential. *)
Definition jastrow_value (logabs : bool) (log_jastrow : fl) : fl := if logabs then log_jastrow else fexp log_jastrow.
(** jastrow.py:121-130; [r_ei] holds, for each electron, its displacements from the ions.  There is one decay rate, for all ions. *)
Definition one_body (logabs : bool) (rate : fl) (r_ei : list (list (list fl))) : fl :=
  jastrow_value logabs (Bopp (fsum (map (norm prec emax fsum) (map (isotropic prec emax rate) (concat r_ei))))).
(** jastrow.py:327-332, on the backflow's output. *)
Definition backflow_jastrow (logabs : bool) (stream_1e : list (list fl)) : fl :=
  jastrow_value logabs (Bopp (mean prec emax fsum (map (norm prec emax fsum) stream_1e))).
End Jastrow.
