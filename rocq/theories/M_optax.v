(** * Model of the choice and construction of the optimiser (vmcnet/updates/parse_config.py)

    Parameters are flattened to one vector as in M_optim.  The energy gradient is averaged over the devices before the
    optimiser sees it (params.py 110), so for SGD, Adam and stochastic reconfiguration every device computes the same
    step and one copy of parameters and state is modelled; SPRING is modelled on one device (its replicas can differ:
    C57_replicas_refuted).  Arithmetic is exact. *)
From Coq Require Import String Ascii Reals List Bool Arith ZArith.
From Verif Require Import XReal Rsum M_io M_vmc M_mcmc M_optim.
Import ListNotations.
Local Open Scope R_scope.

(** ** The configuration: default_config.py 313-366 *)
(** The three learning-rate fields every section has. *)
Record schedule_cfg := { sc_type : string; sc_rate : R; sc_decay : R }.
(** 328-336 *)
Record adam_cfg := { ad_b1 : R; ad_b2 : R; ad_eps : R; ad_eps_root : R; ad_schedule : schedule_cfg }.
(** 337-343 *)
Record sgd_cfg := { sg_momentum : R; sg_nesterov : bool; sg_schedule : schedule_cfg }.
(** 344-353 *)
Record sr_cfg := { sr_damping : R; sr_maxiter : Z; sr_descent_type : string; sr_norm_constraint : R; sr_mode_name : string; sr_schedule : schedule_cfg }.
(** 354-366 *)
Record spring_cfg := { sp_mu : R; sp_momentum : R; sp_damping : R; sp_constrain_norm : bool; sp_norm_constraint : R; sp_schedule : schedule_cfg }.
(** 313-367; of the kfac section (315-327) only the schedule and the damping are kept, the other fields go to kfac_jax. *)
Record opt_cfg := { oc_type : string; oc_kfac_schedule : schedule_cfg; oc_kfac_damping : R;
  oc_adam : adam_cfg; oc_sgd : sgd_cfg; oc_sr : sr_cfg; oc_spring : spring_cfg }.

(** vmc_config.optimizer[name] (parse_config.py 105-107): the schedule fields of that section; [None]: KeyError. *)
Definition section_schedule (c : opt_cfg) (name : string) : option schedule_cfg :=
  if String.eqb name "kfac" then Some (oc_kfac_schedule c)
  else if String.eqb name "adam" then Some (ad_schedule (oc_adam c))
  else if String.eqb name "sgd" then Some (sg_schedule (oc_sgd c))
  else if String.eqb name "sr" then Some (sr_schedule (oc_sr c))
  else if String.eqb name "spring" then Some (sp_schedule (oc_spring c))
  else None.

(** ** optax (third-party, modelled from its definitions) *)
(** optax.sgd and optax.adam up to the scaling by the learning rate: identity or trace; scale_by_adam. *)
Inductive transform := Sgd (momentum : option R) (nesterov : bool) | Adam (b1 b2 eps eps_root : R).
Inductive first_state := EmptyState | TraceState (trace : rvec) | AdamState (count : nat) (mu nu : rvec).
(** The state of the chain: that of the transformation, and the count of scale_by_schedule. *)
Record optax_state := { os_first : first_state; os_count : nat }.
Definition optax_init (t : transform) : optax_state :=
  {| os_first := match t with Sgd None _ => EmptyState | Sgd (Some _) _ => TraceState (fun _ => 0) | Adam _ _ _ _ => AdamState 0 (fun _ => 0) (fun _ => 0) end;
     os_count := 0 |}.
(** [None]: the state has another structure (AttributeError or a pytree mismatch). *)
Definition transform_update (t : transform) (g : rvec) (s : first_state) : option (rvec * first_state) :=
  match t, s with
  | Sgd None _, EmptyState => Some (g, EmptyState)
  | Sgd (Some m) nesterov, TraceState tr =>
      let tr' := fun k => g k + m * tr k in
      Some (if nesterov then fun k => g k + m * tr' k else tr', TraceState tr')
  | Adam b1 b2 eps eps_root, AdamState n mu nu =>
      let mu' := fun k => b1 * mu k + (1 - b1) * g k in
      let nu' := fun k => b2 * nu k + (1 - b2) * g k ^ 2 in
      let n' := S n in
      let mu_hat := fun k => mu' k / (1 - b1 ^ n') in
      let nu_hat := fun k => nu' k / (1 - b2 ^ n') in
      Some (fun k => mu_hat k / (sqrt (nu_hat k + eps_root) + eps), AdamState n' mu' nu')
  | _, _ => None
  end.
Definition optax_update (t : transform) (schedule : nat -> R) (g : rvec) (s : optax_state) : option (rvec * optax_state) :=
  match transform_update t g (os_first s) with
  | Some (u, f) => Some (fun k => - schedule (os_count s) * u k, {| os_first := f; os_count := S (os_count s) |})
  | None => None
  end.

(** parse_config.py 274-284: _get_adam_optax_optimizer. *)
Definition adam_transform (c : adam_cfg) : transform := Adam (ad_b1 c) (ad_b2 c) (ad_eps c) (ad_eps_root c).
(** parse_config.py 287-295: _get_sgd_optax_optimizer. *)
Definition sgd_transform (c : sgd_cfg) : transform :=
  Sgd (if Req_EM_T (sg_momentum c) 0 then None else Some (sg_momentum c)) (sg_nesterov c).

(** ** The chosen optimiser *)
Inductive optimiser :=
| Kfac (schedule : nat -> R) (damping : R)
| Optax (t : transform) (schedule : nat -> R)
| SR (mode : sr_mode) (damping : R) (maxiter : option nat) (norm_constraint : R) (t : transform) (schedule : nat -> R)
| Spring (damping mu momentum : R) (norm_constraint : option R) (schedule : nat -> R).
Inductive chosen := Chosen (o : optimiser) | Error (e : exn).

(** str.upper on ASCII. *)
Definition upper_ascii (a : ascii) : ascii :=
  let n := nat_of_ascii a in if Nat.leb 97 n && Nat.leb n 122 then ascii_of_nat (n - 32) else a.
Fixpoint upper_case (s : string) : string := match s with EmptyString => EmptyString | String a r => String (upper_ascii a) (upper_case r) end.
(** SRMode[name] (sr.py 20-31). *)
Definition sr_mode_of (name : string) : option sr_mode :=
  if String.eqb name "LAZY" then Some LAZY else if String.eqb name "DEBUG" then Some DEBUG else None.

(** parse_config.py 437-511: get_sr_update_fn_and_state (the choices; its step is in [optimiser_apply]), after the lookup of the
    descent section in the caller's argument list (line 164). *)
Definition get_sr (c : opt_cfg) (schedule : nat -> R) : chosen :=
  let s := oc_sr c in
  match section_schedule c (sr_descent_type s) with
  | None => Error KeyError
  | Some _ =>
      let maxiter := if Z.leb 0 (sr_maxiter s) then Some (Z.to_nat (sr_maxiter s)) else None in
      match sr_mode_of (upper_case (sr_mode_name s)) with
      | None => Error KeyError
      | Some mode =>
          if String.eqb (sr_descent_type s) "adam" then
            Chosen (SR mode (sr_damping s) maxiter (sr_norm_constraint s) (adam_transform (oc_adam c)) schedule)
          else if String.eqb (sr_descent_type s) "sgd" then
            Chosen (SR mode (sr_damping s) maxiter (sr_norm_constraint s) (sgd_transform (oc_sgd c)) schedule)
          else Error ValueError
      end
  end.

(** parse_config.py 62-193: get_update_fn_and_init_optimizer (which optimiser is built and from which fields). *)
Definition choose_optimiser (c : opt_cfg) : chosen :=
  match section_schedule c (oc_type c) with
  | None => Error KeyError
  | Some sc =>
      match learning_rate_schedule (sc_type sc) (sc_rate sc) (sc_decay sc) with
      | None => Error ValueError
      | Some schedule =>
          if String.eqb (oc_type c) "kfac" then Chosen (Kfac schedule (oc_kfac_damping c))
          else if String.eqb (oc_type c) "sgd" then Chosen (Optax (sgd_transform (oc_sgd c)) schedule)
          else if String.eqb (oc_type c) "adam" then Chosen (Optax (adam_transform (oc_adam c)) schedule)
          else if String.eqb (oc_type c) "sr" then get_sr c schedule
          else if String.eqb (oc_type c) "spring" then
            let s := oc_spring c in
            Chosen (Spring (sp_damping s) (sp_mu s) (sp_momentum s) (if sp_constrain_norm s then Some (sp_norm_constraint s) else None) schedule)
          else Error ValueError
      end
  end.

(** The initial state (parse_config.py 298-305; SPRING's optax.sgd has momentum=0, not None: lines 592-594). *)
Definition init_state (o : optimiser) : option optax_state :=
  match o with
  | Kfac _ _ => None
  | Optax t _ => Some (optax_init t)
  | SR _ _ _ _ t _ => Some (optax_init t)
  | Spring _ _ _ _ _ => Some (optax_init (Sgd (Some 0) false))
  end.

(** ** One update *)
(** What an update sees: the energy gradient; per device, the gradients of log|psi| at its walkers; the centred local
    energies (of the first device: used by SPRING only). *)
Record seen := { in_grad : rvec; in_dlogs : list (list rvec); in_energies : rvec }.
Inductive stepped := Stepped (params : rvec) (s : optax_state)
| NotFinite   (* the factor of the norm constraint is NaN, and so are all parameters *)
| WrongState  (* the optimiser state has another structure: an exception, or (KFAC) not modelled *).

(** optax.apply_updates *)
Definition apply_updates (params u : rvec) : rvec := fun k => params k + u k.

(** parse_config.py 317-321, 516-528 and 599-619: optimizer_apply of the optax, SR and SPRING optimisers. *)
Definition optimiser_apply (np : nat) (o : optimiser) (i : seen) (params : rvec) (s : optax_state) : stepped :=
  match o with
  | Kfac _ _ => WrongState
  | Optax t schedule =>
      match optax_update t schedule (in_grad i) s with Some (u, s') => Stepped (apply_updates params u) s' | None => WrongState end
  | SR mode damping maxiter norm_constraint t schedule =>
      let p := precondition_grad_with_fisher mode np damping maxiter (in_dlogs i) (in_grad i) in
      let lr := schedule (os_count s) in
      let sq_norm := lmean (repeat (inner np p (in_grad i) * lr ^ 2) (length (in_dlogs i))) in
      match norm_coefficient norm_constraint sq_norm with
      | Fin coefficient =>
          match optax_update t schedule (fun k => coefficient * p k) s with Some (u, s') => Stepped (apply_updates params u) s' | None => WrongState end
      | _ => NotFinite
      end
  | Spring damping mu momentum constraint schedule =>
      match os_first s with
      | TraceState prev =>
          let walkers := hd [] (in_dlogs i) in
          let grad := spring_update (length walkers) np damping mu momentum (fun j => nth j walkers (fun _ => 0)) (in_energies i) prev in
          match optax_update (Sgd (Some 0) false) schedule grad s with
          | Some (u, s') =>
              match constraint with
              | None => Stepped (apply_updates params u) s'
              | Some c =>
                  match norm_coefficient c (inner np u u) with
                  | Fin coefficient => Stepped (apply_updates params (fun k => coefficient * u k)) s'
                  | _ => NotFinite
                  end
              end
          | None => WrongState
          end
      | _ => WrongState
      end
  end.

(** ** A sequence of updates (train/vmc.py 80-100: the state is handed from one epoch to the next) *)
Definition next (np : nat) (o : optimiser) (r : stepped) (i : seen) : stepped :=
  match r with Stepped p s => optimiser_apply np o i p s | r => r end.
Definition updates_from (np : nat) (o : optimiser) (inputs : list seen) (r : stepped) : stepped := fold_left (next np o) inputs r.
(** A training run from fresh parameters: the optimiser the configuration asks for, its initial state, then the updates. *)
Definition optimise (np : nat) (c : opt_cfg) (inputs : list seen) (params : rvec) : stepped + exn :=
  match choose_optimiser c with
  | Error e => inr e
  | Chosen o => match init_state o with Some s => inl (updates_from np o inputs (Stepped params s)) | None => inl WrongState end
  end.
