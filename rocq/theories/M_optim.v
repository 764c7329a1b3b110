(** * Model of the optimisers (vmcnet/updates: spring.py, sr.py, parse_config.py, params.py)

    Parameters are flattened to one vector (jax.flatten_util.ravel_pytree; pytree_helpers.py 10-47
    act leaf by leaf, so the sums over leaves are sums over the flattened vector).  A vector of
    [np] parameters or [n] walkers is a function on indices, read below its dimension only.
    Arithmetic is exact; the norm constraints, which divide by a norm that can vanish, are on
    extended reals. *)
From Coq Require Import String Reals List Bool Arith.
From Verif Require Import XReal Rsum M_io M_vmc M_mcmc.
Import ListNotations.
Local Open Scope R_scope.

Notation rvec := (nat -> R).
Notation rmat := (nat -> nat -> R).

(** pytree_helpers.py 38-41: tree_inner_product. *)
Definition inner (n : nat) (u v : rvec) : R := Rsum n (fun k => u k * v k).
(** jnp.matmul of an (n, m) matrix and a vector. *)
Definition matvec (m : nat) (A : rmat) (x : rvec) : rvec := fun i => Rsum m (fun j => A i j * x j).
(** The transpose applied to a vector. *)
Definition vecmat (n : nat) (A : rmat) (y : rvec) : rvec := fun k => Rsum n (fun i => A i k * y i).
Definition eye_r (i j : nat) : R := if Nat.eqb i j then 1 else 0.

(** jax.scipy.linalg.solve with assume_a="pos" (third-party: Cholesky factorisation and two
    triangular solves; in exact arithmetic the same numbers as this elimination without pivoting). *)
Fixpoint pos_solve (n : nat) (A : rmat) (b : rvec) : rvec :=
  match n with
  | O => fun _ => 0
  | S n' =>
      let a := A O O in
      let A' := fun i j => A (S i) (S j) - A (S i) O * A O (S j) / a in
      let b' := fun i => b (S i) - A (S i) O * b O / a in
      let y := pos_solve n' A' b' in
      let y0 := (b O - Rsum n' (fun j => A O (S j) * y j)) / a in
      fun i => match i with O => y0 | S i' => y i' end
  end.

(** ** spring.py *)
(** spring.py 53-56: the centred and scaled log-derivatives; [G i] is the gradient of log|psi| at walker i. *)
Definition spring_scaled (n : nat) (G : rmat) : rmat := fun i k => G i k / sqrt (INR n).
Definition spring_ohat (n : nat) (G : rmat) : rmat :=
  fun i k => spring_scaled n G i k - Rsum n (fun j => spring_scaled n G j k) / INR n.
(** spring.py 58-60: T_reg. *)
Definition spring_treg (n np : nat) (damping : R) (O : rmat) : rmat :=
  fun i j => Rsum np (fun k => O i k * O j k) + 1 * 1 / INR n + damping * eye_r i j.
(** spring.py 42-72: spring_update_fn. *)
Definition spring_update (n np : nat) (damping mu momentum : R) (G : rmat) (centered_energies prev_grad : rvec) : rvec :=
  let prev_decayed := fun k => mu * prev_grad k in
  let O := spring_ohat n G in
  let T_reg := spring_treg n np damping O in
  let epsilon_bar := fun i => centered_energies i / sqrt (INR n) in
  let epsilon_tilde := fun i => epsilon_bar i - matvec np O prev_decayed i in
  let dtheta_residual := vecmat n O (pos_solve n T_reg epsilon_tilde) in
  let SR_G := fun k => dtheta_residual k + prev_decayed k in
  fun k => (1 - momentum) * SR_G k + momentum * prev_grad k.

(** distribute.py pmean: average over the devices. *)
Definition lmean (l : list R) : R := lsum l / INR (length l).
(** The coefficient shared by both constraints (spring.py 88-89, sr.py 184-185). *)
Definition norm_coefficient (norm_constraint sq_norm : R) : xr :=
  xmin (xsqrt (xdiv (Fin norm_constraint) (Fin sq_norm))) (Fin 1).
(** spring.py 77-92: constrain_norm on all devices; one vector per device. *)
Definition constrain_norm_spring (np : nat) (norm_constraint : R) (grads : list rvec) : list (nat -> xr) :=
  let sq_norm := lmean (map (fun g => inner np g g) grads) in
  map (fun g k => xmul (norm_coefficient norm_constraint sq_norm) (Fin (g k))) grads.

(** ** sr.py *)
(** distribute.py get_mean_over_first_axis_fn: mean over the walkers of a device, then over the devices (the
    nan-safe version is the same function of finite numbers). *)
Definition mean_over_walkers (shards : list (list R)) : R := lmean (map lmean shards).
(** sr.py 136-150: the LAZY matrix-vector product; a shard lists the gradients of log|psi| at the walkers of a
    device.  jax.jvp and jax.vjp are the Jacobian and its transpose. *)
Definition lazy_fisher_apply (np : nat) (damping : R) (shards : list (list rvec)) (x : rvec) : rvec :=
  let jvp := map (map (fun g => inner np g x)) shards in
  let mean := mean_over_walkers jvp in
  let centered := map (map (fun v => v - mean)) jvp in
  let vjp := fun (shard : list rvec) (c : list R) (k : nat) => lsum (map (fun p => snd p * fst p k) (combine shard c)) in
  let local := fun k => map (fun p => 1 / INR (length (fst p)) * vjp (fst p) (snd p) k) (combine shards centered) in
  fun k => lmean (local k) + damping * x k.
(** sr.py 97-115: the DEBUG product with the explicit centred Jacobian. *)
Definition debug_fisher_apply (np : nat) (damping : R) (shards : list (list rvec)) (x : rvec) : rvec :=
  let mean := fun k => mean_over_walkers (map (map (fun g : rvec => g k)) shards) in
  let centered := map (map (fun (g : rvec) k => g k - mean k)) shards in
  let local := fun k => map (fun shard => lsum (map (fun g : rvec => g k * inner np g x) shard) / INR (length shard)) centered in
  fun k => lmean (local k) + damping * x k.

(** jax.scipy.sparse.linalg.cg without preconditioner (third-party, modelled from its definition): tol = 1e-5,
    atol = 0, maxiter = 10 * size by default.  State: x, r, gamma, p. *)
Record cg_state := { cg_x : rvec; cg_r : rvec; cg_gamma : R; cg_p : rvec }.
Definition cg_body (n : nat) (A : rvec -> rvec) (s : cg_state) : cg_state :=
  let Ap := A (cg_p s) in
  let alpha := cg_gamma s / inner n (cg_p s) Ap in
  let x' := fun k => cg_x s k + alpha * cg_p s k in
  let r' := fun k => cg_r s k - alpha * Ap k in
  let gamma' := inner n r' r' in
  let beta := gamma' / cg_gamma s in
  Build_cg_state x' r' gamma' (fun k => r' k + beta * cg_p s k).
Definition cg_init (n : nat) (A : rvec -> rvec) (b x0 : rvec) : cg_state :=
  let r0 := fun k => b k - A x0 k in Build_cg_state x0 r0 (inner n r0 r0) r0.
Definition cg_tol2 : R := (/ 100000) ^ 2.
(** while_loop: (gamma > tol^2 |b|^2) and (k < maxiter). *)
Fixpoint cg_loop (n : nat) (A : rvec -> rvec) (atol2 : R) (fuel : nat) (s : cg_state) : cg_state :=
  match fuel with
  | O => s
  | S f => if Rlt_dec atol2 (cg_gamma s) then cg_loop n A atol2 f (cg_body n A s) else s
  end.
Definition cg (n : nat) (A : rvec -> rvec) (b x0 : rvec) (maxiter : option nat) : rvec :=
  cg_x (cg_loop n A (cg_tol2 * inner n b b) (match maxiter with Some m => m | None => 10 * n end)%nat (cg_init n A b x0)).

(** sr.py 31-32: SRMode; 117-122 and 152-157 (any other mode: ValueError, 161-165). *)
Inductive sr_mode := LAZY | DEBUG.
Definition precondition_grad_with_fisher (mode : sr_mode) (np : nat) (damping : R) (maxiter : option nat) (shards : list (list rvec)) (energy_grad : rvec) : rvec :=
  cg np (match mode with LAZY => lazy_fisher_apply np damping shards | DEBUG => debug_fisher_apply np damping shards end) energy_grad energy_grad maxiter.
(** sr.py 170-188: constrain_norm on all devices: pairs (gradient, preconditioned gradient). *)
Definition constrain_norm_sr (np : nat) (learning_rate norm_constraint : R) (grads : list (rvec * rvec)) : list (nat -> xr) :=
  let sq_norm := lmean (map (fun p => inner np (snd p) (fst p) * learning_rate ^ 2) grads) in
  map (fun p k => xmul (norm_coefficient norm_constraint sq_norm) (Fin (snd p k))) grads.

(** ** parse_config.py 37-59: _get_learning_rate_schedule; [None]: ValueError. *)
Definition learning_rate_schedule (schedule_type : string) (learning_rate learning_decay_rate : R) : option (nat -> R) :=
  if String.eqb schedule_type "constant" then Some (fun _ => learning_rate)
  else if String.eqb schedule_type "inverse_time" then Some (fun t => learning_rate / (1 + learning_decay_rate * INR t))
  else None.

(** ** optax.sgd (third-party, modelled from its definition): trace with decay [momentum] ([None]: no trace),
    optionally Nesterov, then scaling by minus the scheduled learning rate. *)
Record sgd_state := { trace : rvec; count : nat }.
Definition sgd_init : sgd_state := Build_sgd_state (fun _ => 0) 0.
Definition sgd_update (momentum : option R) (nesterov : bool) (schedule : nat -> R) (g : rvec) (s : sgd_state) : rvec * sgd_state :=
  let lr := schedule (count s) in
  match momentum with
  | None => (fun k => - lr * g k, Build_sgd_state (trace s) (S (count s)))
  | Some m =>
      let t := fun k => g k + m * trace s k in
      let u := if nesterov then fun k => g k + m * t k else t in
      (fun k => - lr * u k, Build_sgd_state t (S (count s)))
  end.
(** parse_config.py 592-619: one SPRING step on one device without the norm constraint: the previous
    direction is the trace of optax.sgd with momentum 0. *)
Definition spring_step (n np : nat) (damping mu momentum : R) (schedule : nat -> R) (G : rmat) (centered_energies params : rvec) (s : sgd_state) : rvec * sgd_state :=
  let grad := spring_update n np damping mu momentum G centered_energies (trace s) in
  let '(updates, s') := sgd_update (Some 0) false schedule grad s in
  (fun k => params k + updates k, s').
(** The same with the constraint (spring.py 77-92) on one device. *)
Definition spring_step_constrained (n np : nat) (damping mu momentum norm_constraint : R) (schedule : nat -> R) (G : rmat) (centered_energies params : rvec) (s : sgd_state)
    : (nat -> xr) * sgd_state :=
  let grad := spring_update n np damping mu momentum G centered_energies (trace s) in
  let '(updates, s') := sgd_update (Some 0) false schedule grad s in
  (fun k => xadd (Fin (params k)) (hd (fun _ => NaN) (constrain_norm_spring np norm_constraint [updates]) k), s').

(** ** params.py, on all devices in lock step *)
Section Params.
  Context {P M K St Gr : Type}.
  Variable g : prng K.
  Variable model_apply : P -> list (list R) -> list xr.
  Definition positions_of (datas : list (padata M)) : list (list (list R)) := map pos datas.
  (** params.py 30-37: _update_metrics_with_noclip ([None]: not recorded). *)
  Definition with_noclip (energy_noclip variance_noclip : option xr) (metrics : dict) : dict :=
    let metrics := match energy_noclip with Some e => dset metrics "energy_noclip" e | None => metrics end in
    match variance_noclip with Some v => dset metrics "variance_noclip" v | None => metrics end.
  (** What energy_data_val_and_grad returns: energy, variance, the unclipped pair, and per device the centred local energies
      and the gradient (physics/core.py; modelled in M_energy). *)
  Record energy_data := { ed_energy : xr; ed_variance : xr; ed_energy_noclip : option xr; ed_variance_noclip : option xr; ed_centered : list (list xr) }.
  Variable energy_data_val_and_grad : P -> list K -> list (list (list R)) -> energy_data * Gr.
  (** The pmean of the gradient (line 110) is part of [Gr]; optimizer_apply is one of the optimisers of parse_config.py. *)
  Variable optimizer_apply : Gr -> P -> St -> list (padata M) -> list (list xr) -> P * St.
  Variable param_l1_norm : P -> xr.
  Definition with_l1 (record_param_l1_norm : bool) (params : P) (metrics : dict) : dict :=
    if record_param_l1_norm then dset metrics "param_l1_norm" (param_l1_norm params) else metrics.
  (** params.py 103-128: update_param_fn. *)
  Definition grad_update_param_fn (record_param_l1_norm : bool) (params : P) (datas : list (padata M)) (optimizer_state : St) (keys : list K)
      : P * list (padata M) * St * option dict * list K :=
    let positions := positions_of datas in
    let splits := map (split2 g) keys in
    let '(ed, grad) := energy_data_val_and_grad params (map snd splits) positions in
    let '(params, optimizer_state) := optimizer_apply grad params optimizer_state datas (ed_centered ed) in
    let datas := map (fun d => update_data_fn model_apply d params) datas in
    let metrics := with_l1 record_param_l1_norm params
        (with_noclip (ed_energy_noclip ed) (ed_variance_noclip ed) [("energy", ed_energy ed); ("variance", ed_variance ed)])%string in
    (params, datas, optimizer_state, Some metrics, map fst splits).
  (** params.py 176-210: the KFAC step (kfac_jax's step is third-party: an arbitrary function). *)
  Variable kfac_step : P -> St -> list K -> list (list (list R)) -> P * St * energy_data.
  Definition kfac_update_param_fn (record_param_l1_norm : bool) (params : P) (datas : list (padata M)) (optimizer_state : St) (keys : list K)
      : P * list (padata M) * St * option dict * list K :=
    let splits := map (split2 g) keys in
    let '(params, optimizer_state, ed) := kfac_step params optimizer_state (map snd splits) (positions_of datas) in
    let datas := map (fun d => update_data_fn model_apply d params) datas in
    let metrics := with_l1 record_param_l1_norm params
        (with_noclip (ed_energy_noclip ed) (ed_variance_noclip ed) [("energy", ed_energy ed); ("variance", ed_variance ed)])%string in
    (params, datas, optimizer_state, Some metrics, map fst splits).
  (** params.py 246-266 without a key for the local energy: eval_update_param_fn.  [statistics] is
      get_statistics_from_local_energy (M_energy).  The recorded local energies are an array metric, not modelled here. *)
  Variable local_energy : P -> list R -> xr.
  Variable statistics : list (list xr) -> xr * xr.
  Definition eval_update_param_fn (params : P) (datas : list (padata M)) (optimizer_state : St) (keys : list K)
      : P * list (padata M) * St * option dict * list K :=
    let local_energies := map (map (local_energy params)) (positions_of datas) in
    let '(energy, variance) := statistics local_energies in
    (params, datas, optimizer_state, Some [("energy", energy); ("variance", variance)]%string, keys).
End Params.

(** train/runners.py 548-554: the checkpointing options of an evaluation run (no checkpoints, no NaN check). *)
Definition eval_run_cfg {D} (ld : option string) (rec_amps : bool) (amplitude_fn : option (D -> xr * xr)) (nch : nat) : cfg D :=
  {| logdir := ld; checkpoint_every := None; best_checkpoint_every := None; checkpoint_dir := ""; variance_scale := 0; check_for_nans := false;
     record_amplitudes := rec_amps; get_amplitude_fn := amplitude_fn; nchains := nch; nhistory_max := 0 |}.
