(** * Vocabulary for the random numbers of a whole job (C79) *)
From Coq Require Import String Reals List Arith.
From Verif Require Import XReal M_io M_vmc M_mcmc M_energy M_physics M_setup M_models M_dispatch M_keys M_optim M_optax M_start M_job S_mcmc S_start S_job.
Import ListNotations.
Local Open Scope R_scope.

(** The Metropolis steps of a job: of burning, of training epoch e, of burning before evaluation, of evaluation epoch e. *)
Inductive moment := Burning (t : nat) | Training (e t : nat) | EvalBurning (t : nat) | Evaluating (e t : nat).
(** Everything in a job that needs randomness: the ions the electrons of walker i start at and the noise around them (of training, of new walkers for evaluation),
    the first parameters, the first state of an optimiser that wants a key, the proposals and the decisions of a step on one device, the parameter update of an epoch on one device. *)
Inductive draw :=
| Ions (evaluation : bool) (i : nat)
| Noise (evaluation : bool)
| FirstParameters
| FirstOptimiserState (device : nat)
| Proposals (m : moment) (device : nat)
| Decisions (m : moment) (device : nat)
| Update (e device : nat).

(** Evaluation starts with new walkers. *)
Definition new_walkers_for_evaluation (c : job_config) : Prop := jc_eval_use_training_data c = false \/ wc_nchains (jc_walk c) <> wc_nchains (jc_eval_walk c).
(** The steps a job with this configuration makes, and what it draws, on [ndev] devices. *)
Definition step_of_job (c : job_config) (m : moment) : Prop :=
  match m with
  | Burning t => (t < wc_nburn (jc_walk c))%nat
  | Training e t => (e < jc_nepochs c)%nat /\ (t < wc_nsteps (jc_walk c))%nat
  | EvalBurning t => (t < wc_nburn (jc_eval_walk c))%nat
  | Evaluating e t => (e < jc_eval_nepochs c)%nat /\ (t < wc_nsteps (jc_eval_walk c))%nat
  end.
Definition draw_of_job (ndev : nat) (c : job_config) (d : draw) : Prop :=
  match d with
  | Ions false i => (i < wc_nchains (jc_walk c))%nat
  | Ions true i => new_walkers_for_evaluation c /\ (i < wc_nchains (jc_eval_walk c))%nat
  | Noise false => True
  | Noise true => new_walkers_for_evaluation c
  | FirstParameters => True
  | FirstOptimiserState dv => oc_type (jc_optimizer c) = "kfac"%string /\ (dv < ndev)%nat
  | Proposals m dv | Decisions m dv => step_of_job c m /\ (dv < ndev)%nat
  | Update e dv => (e < jc_nepochs c)%nat /\ (dv < ndev)%nat
  end.

(** A new walker: every electron at the ion that was drawn for it, moved by the noise. *)
Definition new_walkers (c : job_config) (nchains : nat) (assigned : nat -> list nat) (noise : list (list R)) : list (list R) :=
  map (fun i => moved 1 (concat (map (fun a => nth a (jc_ion_pos c) []) (assigned i))) (nth i noise [])) (seq 0 nchains).
(** The ions of the electrons of one walker, drawn with probabilities proportional to the charges, with repetition only if there are more electrons than ions. *)
Definition ions_drawn (choice : choice_fn key) (c : job_config) (k : key) : list nat :=
  choice k (length (jc_ion_charges c)) (electron_count c) (Nat.ltb (length (jc_ion_charges c)) (electron_count c))
    (map (fun z => z / fold_right Rplus 0 (jc_ion_charges c)) (jc_ion_charges c)).

(** One Metropolis step of the walkers of one device: walker i proposes to move by s times zs_i, and does so if u_i is below the chance. *)
Definition step_drawn {P} (psi : P -> list R -> xr) (p : P) (s : R) (zs : list (list R)) (us : list R) (xs : list (list R)) : list (list R) :=
  map (fun i => let x := nth i xs [] in let y := moved s x (nth i zs []) in if Rlt_dec (nth i us 0) (metropolis_chance (psi p x) (psi p y)) then y else x) (seq 0 (length xs)).
(** n steps one after the other on all devices, with the random numbers of the given keys (of step t and device dv); in every step all devices have the same width. *)
Definition walk_drawn {P} (g : prng key) (ndev : nat) (psi : P -> list R -> xr) (p : P) (proposals decisions : nat -> nat -> key) (n : nat) (xs ys : list (list (list R))) : Prop :=
  exists at_time : nat -> list (list (list R)), at_time O = xs /\ at_time n = ys /\
    forall t, (t < n)%nat -> exists s, 0 < s /\
      at_time (S t) = map (fun dv => let l := nth dv (at_time t) [] in step_drawn psi p s (normal g (proposals t dv) (map (@length R) l)) (uniform g (decisions t dv) (length l)) l) (seq 0 ndev).

(** The parameter gradients of log|psi| at the walkers, device by device. *)
Definition gradients_at {P1} (theta : P1 -> model_params) (grad_p : (P1 -> R) -> P1 -> nat -> R) (c : job_config) (p : P1) (xs : list (list (list R))) : list (list (nat -> R)) :=
  map (map (fun x => grad_p (fun p' => match configured_log_psi theta c p' (electrons_of_walker c x) with Fin r => r | _ => 0 end) p)) xs.
(** The parameter update of an epoch with the given keys (one per device): the energy estimator of the configuration (C78 says what it computes) is evaluated
    with these keys (KFAC hands it keys it derives from them), and the optimiser gets its result. *)
Definition update_drawn {P1 S1} (energy_and_gradient : P1 -> list key -> list (list (list R)) -> result (energy_data * (nat -> xr))) (theta : P1 -> model_params)
    (grad_p : (P1 -> R) -> P1 -> nat -> R) (opt_apply : optimiser -> (nat -> xr) -> P1 -> S1 -> list (list (nat -> R)) -> list (list xr) -> P1 * S1) (kfac : kfac_optimizer P1 S1 key)
    (c : job_config) (o : optimiser) (ks : list key) (p : P1) (s : S1) (xs : list (list (list R))) (p' : P1) (s' : S1) : Prop :=
  exists ed gr, energy_and_gradient p (match o with Kfac _ _ => map (kf_value_key kfac) ks | _ => ks end) xs = Ok (ed, gr) /\
    match o with
    | Kfac _ _ => kf_step kfac o gr p s ks xs
    | _ => opt_apply o gr p s (gradients_at theta grad_p c p xs) (ed_centered ed)
    end = (p', s').
