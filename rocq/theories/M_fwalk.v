(** M_fwalk: Metropolis steps on machine floating-point numbers.

    Models, on the floating-point numbers of M_float (any format, rounding to nearest even, subnormal numbers kept):
    - vmcnet/mcmc/metropolis.py:52-65 [metrop_step_fn] (the decision and the update), :229-243 [gaussian_proposal],
      :246-295 [metropolis_symmetric_acceptance];
    - vmcnet/mcmc/position_amplitude_core.py:162-174, 240-262 (proposal and masked update);
    - vmcnet/mcmc/dynamic_width_position_amplitude.py:81-119 [make_threshold_adjust_std_move],
      :122-175 [make_update_move_metadata_fn].

    Simplifications.  Random numbers are inputs: for each walker the normal draws and the uniform draw.  The wavefunction is any
    function from a walker's coordinates to a floating-point number; positions are flat lists of coordinates.  jnp.exp and jnp.sum
    are parameters as in M_float.  The mean acceptance probability of a step, which is only reported, is not modelled.  Counting
    moves is exact (int32 in the code). *)
From Coq Require Import ZArith Reals.
From Flocq Require Import Core IEEE754.BinarySingleNaN.
From Coq Require Import Lia List Bool Arith.
Import ListNotations.
From Verif Require Import M_float.

Section Walk.
Variables prec emax : Z.
Context {Hp : Prec_gt_0 prec}.
Context {He : Prec_lt_emax prec emax}.
Notation fl := (binary_float prec emax).
Notation fone := (fone prec emax). Notation fzero := (fzero prec emax).
Notation fadd := (fadd prec emax). Notation fsub := (fsub prec emax). Notation fmul := (fmul prec emax).

(** jnp's division; the constant 2.0; an integer as a floating-point number. *)
Definition fdiv : fl -> fl -> fl := Bdiv mode_NE.
Definition ftwo : fl := fadd fone fone.
Definition of_nat (n : nat) : fl := binary_normalize prec emax Hp He mode_NE (Z.of_nat n) 0 false.

Section Functions.
(** jnp.exp, jnp.sum and the wavefunction. *)
Variables (fe : fl -> fl) (fs : list fl -> fl) (psi : list fl -> fl).

(** metropolis.py:274-295. *)
Definition acceptance (logabs : bool) (a p : fl) : fl :=
  if logabs then
    let old := fmul ftwo a in let new := fmul ftwo p in
    if Bltb old new then fone else fe (fsub new old)
  else
    let old := fmul a a in let new := fmul p p in
    if Bltb old new || Beqb old fzero then fone else fdiv new old.

Record walker := { w_pos : list fl; w_amp : fl }.
(** The random numbers of one walker in one step. *)
Record draw := { d_normal : list fl; d_uniform : fl }.

(** metropolis.py:242-243: positions + std_move * normal. *)
Fixpoint moved (x : list fl) (s : fl) (z : list fl) : list fl :=
  match x, z with c :: x', n :: z' => fadd c (fmul s n) :: moved x' s z' | _, _ => [] end.

(** position_amplitude_core.py:162-174. *)
Definition propose (s : fl) (w : walker) (d : draw) : walker :=
  let x := moved (w_pos w) s (d_normal d) in {| w_pos := x; w_amp := psi x |}.

(** metropolis.py:58-62: uniform < accept_prob. *)
Definition decision (logabs : bool) (s : fl) (w : walker) (d : draw) : bool :=
  Bltb (d_uniform d) (acceptance logabs (w_amp w) (w_amp (propose s w d))).

(** position_amplitude_core.py:245-251: jnp.where on positions and amplitudes. *)
Definition walker_step (logabs : bool) (s : fl) (w : walker) (d : draw) : walker :=
  if decision logabs s w d then propose s w d else w.

Record metadata := { m_std : fl; m_sum : fl; m_count : nat }.

(** dynamic_width_position_amplitude.py:101-119; hi and lo are target + and - threshold, up and down are 1 + and - delta. *)
Definition adjust (hi lo up down : fl) (s avg : fl) : fl :=
  let s1 := if Bltb hi avg then fmul s up else s in
  if Bltb avg lo then fmul s1 down else s1.

(** distribute.py:63-65 on a mask: jnp.mean on each device, then the mean of the devices (sum divided by their number). *)
Definition mask_mean (mask : list bool) : fl := fdiv (fs (map (fun b : bool => if b then fone else fzero) mask)) (of_nat (length mask)).
Definition all_mean (masks : list (list bool)) : fl := fdiv (fs (map mask_mean masks)) (of_nat (length masks)).

(** dynamic_width_position_amplitude.py:144-173. *)
Definition update_metadata (nmoves : nat) (adj : fl -> fl -> fl) (md : metadata) (masks : list (list bool)) : metadata :=
  let sum := fadd (m_sum md) (all_mean masks) in
  let count := S (m_count md) in
  if Nat.leb nmoves count then {| m_std := adj (m_std md) (fdiv sum (of_nat count)); m_sum := fzero; m_count := 0 |}
  else {| m_std := m_std md; m_sum := sum; m_count := count |}.

Fixpoint zip_with {A B C} (f : A -> B -> C) (l : list A) (m : list B) : list C :=
  match l, m with a :: l', b :: m' => f a b :: zip_with f l' m' | _, _ => [] end.

(** One step of all walkers of all devices (metropolis.py:52-65, position_amplitude_core.py:240-262). *)
Definition step (logabs : bool) (nmoves : nat) (adj : fl -> fl -> fl) (st : list (list walker) * metadata) (ds : list (list draw)) : list (list walker) * metadata :=
  let s := m_std (snd st) in
  (zip_with (zip_with (walker_step logabs s)) (fst st) ds, update_metadata nmoves adj (snd st) (zip_with (zip_with (decision logabs s)) (fst st) ds)).

(** Any number of steps (metropolis.py:107-114). *)
Definition run (logabs : bool) (nmoves : nat) (adj : fl -> fl -> fl) (st : list (list walker) * metadata) (dss : list (list (list draw))) : list (list walker) * metadata :=
  fold_left (step logabs nmoves adj) dss st.
End Functions.
End Walk.
