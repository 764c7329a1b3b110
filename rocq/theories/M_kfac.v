(** * Model of the curvature blocks used by KFAC (vmcnet/utils/curvature_tags_and_blocks.py)

    Arrays are real (no rounding).  Shapes and indices are listed from the last axis to the first, as in M_tensor.
    The base classes come from the third-party package kfac_jax; what is modelled of them is marked.  Not modelled: the
    registration of tags and graph patterns (35-46, 217-282), which kfac_jax's tracer interprets.  [None] is a raised exception. *)
From Coq Require Import Reals List Bool Arith ZArith.
From Verif Require Import Rsum M_tensor.
Import ListNotations.
Local Open Scope R_scope.

Record rtensor := { rshape : list nat; rentry : list nat -> R }.

(** kfac_jax.utils.WeightedMovingAverage (third party): zero, update, value. *)
Record moving_average (T : Type) := { ma_weight : R; ma_raw : T }.
Arguments ma_weight {T}. Arguments ma_raw {T}. Arguments Build_moving_average {T}.
Definition matrix := nat -> nat -> R.
Definition ma_zero : moving_average matrix := {| ma_weight := 0; ma_raw := fun _ _ => 0 |}.
Definition ma_update (a : moving_average matrix) (v : matrix) (ema_old ema_new : R) : moving_average matrix :=
  {| ma_weight := ma_weight a * ema_old + ema_new; ma_raw := fun i k => ma_raw a i k * ema_old + v i k * ema_new |}.
Definition ma_value (a : moving_average matrix) : matrix := fun i k => ma_raw a i k / ma_weight a.

(** kfac_jax TwoKroneckerFactored.State (third party), without the cache. *)
Record factors := { inputs_factor : moving_average matrix; outputs_factor : moving_average matrix }.
Definition no_factors : factors := {| inputs_factor := ma_zero; outputs_factor := ma_zero |}.

(** kfac_jax DenseTwoKroneckerFactored.update_curvature_matrix_estimate (third party): x and dy have shape (batch_size, features);
    with a bias a column of ones is appended to x; the factors are einsum("ay,az->yz") / batch_size. *)
Definition dense_update (with_bias : bool) (st : factors) (x dy : rtensor) (ema_old ema_new : R) (batch_size : nat) : option factors :=
  match rshape x, rshape dy with
  | [d; n], [m; n'] =>
      if Nat.eqb n batch_size && Nat.eqb n' batch_size then
        let column := fun (a i : nat) => if Nat.ltb i d then rentry x [i; a] else if with_bias then 1 else 0 in
        let input_stats := fun y z => Rsum n (fun a => column a y * column a z) / INR batch_size in
        let output_stats := fun y z => Rsum n' (fun a => rentry dy [y; a] * rentry dy [z; a]) / INR batch_size in
        Some {| inputs_factor := ma_update (inputs_factor st) input_stats ema_old ema_new;
                outputs_factor := ma_update (outputs_factor st) output_stats ema_old ema_new |}
      else None
  | _, _ => None
  end.

(** x.reshape([-1, x.shape[-1]]) (lines 69-70): the number of rows is inferred; a last axis of size 0 raises. *)
Definition as_rows (x : rtensor) : option rtensor :=
  match rshape x with
  | [] => None
  | O :: _ => None
  | d :: s => let t := [d; (size_of (d :: s) / d)%nat] in Some {| rshape := t; rentry := fun i => rentry x (unravel (rshape x) (ravel t i)) |}
  end.

(** 56-74: RepeatedDenseBlock.update_curvature_matrix_estimate.  The first axis is the last of the list. *)
Definition repeated_dense_update (with_bias : bool) (st : factors) (x dy : rtensor) (ema_old ema_new : R) (batch_size : nat) : option factors :=
  match rshape x with
  | [] => None
  | d :: _ =>
      if Nat.eqb (last (rshape x) O) batch_size then
        match as_rows x, as_rows dy with
        | Some x', Some dy' => dense_update with_bias st x' dy' ema_old ema_new (size_of (rshape x) / d)
        | _, _ => None
        end
      else None
  end.

(** 52-54: RepeatedDenseBlock.fixed_scale; ZeroDivisionError for an array without entries in the first or last axis. *)
Definition repeated_fixed_scale (x_shape : list nat) : option nat :=
  match x_shape with
  | [] => None
  | d :: _ => let q := (last x_shape O * d)%nat in if Nat.eqb q 0 then None else Some (size_of x_shape / q)%nat
  end.

(** ** QmcBlockedDense (77-214) *)
(** The parameter has shape (k, m, j, n) (line 119). *)
Record qmc_dims := { q_k : nat; q_m : nat; q_j : nat; q_n : nat }.
(** One matrix per j. *)
Definition matrices := nat -> matrix.
Definition mas_zero : moving_average matrices := {| ma_weight := 0; ma_raw := fun _ _ _ => 0 |}.
Definition mas_update (a : moving_average matrices) (v : matrices) (ema_old ema_new : R) : moving_average matrices :=
  {| ma_weight := ma_weight a * ema_old + ema_new; ma_raw := fun j i k => ma_raw a j i k * ema_old + v j i k * ema_new |}.
Definition mas_value (a : moving_average matrices) : matrices := fun j i k => ma_raw a j i k / ma_weight a.

Record qmc_state := { qs_inputs : moving_average matrices; qs_outputs : moving_average matrices; qs_cache : list (Z * (matrices * matrices)) }.

(** 111-138: _init; [None] is the NotImplementedError. *)
Fixpoint zero_cache (powers : list Z) : option (list (Z * (matrices * matrices))) :=
  match powers with
  | [] => Some []
  | p :: r => if Z.eqb p (-1) then option_map (cons (p, ((fun _ _ _ => 0), (fun _ _ _ => 0)))) (zero_cache r) else None
  end.
Definition qmc_init (exact_powers approx_powers : list Z) : option qmc_state :=
  match exact_powers with
  | _ :: _ => None
  | [] => option_map (fun c => {| qs_inputs := mas_zero; qs_outputs := mas_zero; qs_cache := c |}) (zero_cache approx_powers)
  end.

(** 89-109: the inputs x have shape (batch, i, j, k), the tangents dy (batch, i, j, m, n); m and n are merged (line 105). *)
Definition qmc_update (q : qmc_dims) (st : qmc_state) (nbatch ni : nat) (x : nat -> nat -> nat -> nat -> R) (dy : nat -> nat -> nat -> nat -> nat -> R)
  (ema_old ema_new : R) (batch_size : nat) : option qmc_state :=
  if Nat.eqb batch_size nbatch then
    let normalizer := INR (nbatch * ni) in
    let merged := fun b i j c => dy b i j (c / q_n q)%nat (c mod q_n q)%nat in
    let inputs_cov := fun j k l => Rsum nbatch (fun b => Rsum ni (fun i => x b i j k * x b i j l)) / normalizer in
    let outputs_cov := fun j k l => Rsum nbatch (fun b => Rsum ni (fun i => merged b i j k * merged b i j l)) / normalizer in
    Some {| qs_inputs := mas_update (qs_inputs st) inputs_cov ema_old ema_new; qs_outputs := mas_update (qs_outputs st) outputs_cov ema_old ema_new; qs_cache := qs_cache st |}
  else None.

Fixpoint lookup_power (p : Z) (c : list (Z * (matrices * matrices))) : option (matrices * matrices) :=
  match c with [] => None | (p', v) :: r => if Z.eqb p p' then Some v else lookup_power p r end.
Fixpoint set_power (p : Z) (v : matrices * matrices) (c : list (Z * (matrices * matrices))) : list (Z * (matrices * matrices)) :=
  match c with [] => [] | (p', w) :: r => if Z.eqb p p' then (p', v) :: r else (p', w) :: set_power p v r end.

(** 140-173: _update_cache on one device; [inverse] is kfac_jax.utils.pi_adjusted_kronecker_inverse (third party), applied for each j (162-172). *)
Fixpoint fill_cache (inverse : matrix -> matrix -> R -> matrix * matrix) (st : qmc_state) (identity_weight : R) (powers : list Z)
  (c : list (Z * (matrices * matrices))) : option (list (Z * (matrices * matrices))) :=
  match powers with
  | [] => Some c
  | p :: r =>
      if Z.eqb p (-1) then
        match lookup_power p c with
        | None => None
        | Some _ =>
            let inv := fun j => inverse (mas_value (qs_inputs st) j) (mas_value (qs_outputs st) j) identity_weight in
            fill_cache inverse st identity_weight r (set_power p ((fun j => fst (inv j)), (fun j => snd (inv j))) c)
        end
      else None
  end.
Definition qmc_update_cache (inverse : matrix -> matrix -> R -> matrix * matrix) (st : qmc_state) (identity_weight : R) (exact_powers approx_powers : list Z) : option qmc_state :=
  match exact_powers with
  | _ :: _ => None
  | [] => option_map (fun c => {| qs_inputs := qs_inputs st; qs_outputs := qs_outputs st; qs_cache := c |}) (fill_cache inverse st identity_weight approx_powers (qs_cache st))
  end.

(** An array of the parameter's shape. *)
Definition weight_array := nat -> nat -> nat -> nat -> R.
(** 190-194, 208-212: to shape (j, k, m n), times the two factors, and back. *)
Definition to_jkmn (q : qmc_dims) (v : weight_array) : matrices := fun j k c => v k (c / q_n q)%nat j (c mod q_n q)%nat.
Definition from_jkmn (q : qmc_dims) (v : matrices) : weight_array := fun k m j n => v j k (m * q_n q + n)%nat.
Definition matmul (n : nat) (a b : matrices) : matrices := fun j i k => Rsum n (fun l => a j i l * b j l k).

(** 175-214: multiply_matpower. *)
Definition qmc_multiply_matpower (q : qmc_dims) (st : qmc_state) (w : weight_array) (identity_weight : R) (power : Z) (exact_power use_cached : bool) : option weight_array :=
  if Z.eqb power 1 then
    let v := matmul (q_k q) (mas_value (qs_inputs st)) (to_jkmn q w) in
    let v := matmul (q_m q * q_n q) v (mas_value (qs_outputs st)) in
    Some (fun k m j n => from_jkmn q v k m j n + identity_weight * w k m j n)
  else if exact_power then None
  else if negb use_cached then None
  else match lookup_power power (qs_cache st) with
       | None => None
       | Some (a, b) =>
           let v := matmul (q_k q) a (to_jkmn q w) in
           let v := matmul (q_m q * q_n q) v b in
           Some (from_jkmn q v)
       end.
