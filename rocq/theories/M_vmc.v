(** * Model of the checkpointing logic (vmcnet/utils/checkpoint.py) and of the main loop
      (vmcnet/train/vmc.py) *)
From Coq Require Import List String Arith ZArith Bool Reals.
From Verif Require Import XReal M_io.
Import ListNotations.
Local Open Scope string_scope.

(** Exceptions that the modelled code can raise. *)
Inductive exn := ValueError | ZeroDivisionError | KeyError.

(** ** Running averages *)

(** [RunningMetric], checkpoint.py 36-51: running average and history (oldest first).
    [nhistory_max] is a parameter of the operations.  Values are jax scalars, so arithmetic never
    raises: dividing by a zero length gives NaN or an infinity. *)
Record running := { avg : xr; history : list xr }.
Definition running_init : running := {| avg := Fin 0; history := [] |}.

Definition xnat (n : nat) : xr := Fin (INR n).

(** [RunningMetric.move_history_window], checkpoint.py 53-74.  [nhistory_max <= 0] is modelled by
    the natural number 0 (negative values take the same branch). *)
Definition move_history_window (nhistory_max : nat) (m : running) (new_value : xr) : running :=
  match nhistory_max with
  | O => m                                                           (* 59-60 *)
  | _ =>
      let len0 := List.length (history m) in                              (* 62 *)
      let hist1 := (history m ++ [new_value])%list in                (* 63 *)
      let sum1 := xadd (xmul (xnat len0) (avg m)) new_value in       (* 65-66 *)
      let len1 := S len0 in                                          (* 67 *)
      if Nat.leb nhistory_max len1 then                              (* 69 *)
        match hist1 with
        | oldest :: rest =>                                          (* 70-72 *)
            let sum2 := xsub sum1 oldest in
            let len2 := len1 - 1 in
            {| avg := xdiv sum2 (xnat len2); history := rest |}      (* 74 *)
        | [] => m (* unreachable: hist1 is non-empty *)
        end
      else {| avg := xdiv sum1 (xnat len1); history := hist1 |}      (* 74 *)
  end.

(** [get_checkpoint_metric], checkpoint.py 265-295. *)
Definition get_checkpoint_metric (e v : xr) (nsamples : nat) (variance_scale : R) : xr :=
  if Rleb variance_scale 0 || Nat.eqb nsamples 0 then e              (* 291-292 *)
  else xadd e (xsqrt (xdiv v (Fin (INR nsamples / variance_scale)%R))).  (* 294-295 *)

(** ** Metrics dictionaries *)

(** A Python dict from metric names to scalars, in insertion order.  (Metrics that are arrays are
    written as one row; the model keeps scalars.) *)
Definition dict := list (string * xr).
Fixpoint dget (d : dict) (k : string) : option xr :=
  match d with
  | [] => None
  | (k', v) :: r => if String.eqb k' k then Some v else dget r k
  end.
Fixpoint dset (d : dict) (k : string) (v : xr) : dict :=
  match d with
  | [] => [(k, v)]
  | (k', w) :: r => if String.eqb k' k then (k', v) :: r else (k', w) :: dset r k v
  end.

Definition best_checkpoint_file_name : string := "best_checkpoint.npz".   (* checkpoint.py 32 *)
Definition regular_name (epoch : nat) : string := str_nat (epoch + 1) ++ ".npz".       (* 608 *)
Definition nans_name (epoch : nat) : string := "nans_" ++ str_nat (epoch + 1) ++ ".npz". (* 620 *)

Section Loop.
  (** Parameters, walker data, optimizer state, PRNG key: abstract. *)
  Variables P D S K : Type.
  (** [walker_fn] and [update_param_fn]: arbitrary (pure, deterministic) functions. *)
  Variable walker_fn : P -> D -> K -> xr * D * K.
  Variable update_param_fn : P -> D -> S -> K -> P * D * S * option dict * K.
  (** [jnp.any(jnp.isnan(ravel_pytree(new_params)))], checkpoint.py 309. *)
  Variable params_have_nan : P -> bool.

  (** [CheckpointData]: (epoch, data, params, optimizer_state, key). *)
  Record ckpt := { c_epoch : nat; c_data : D; c_params : P; c_opt : S; c_key : K }.

  (** Arguments of [vmc_loop] that do not change during the run. *)
  Record cfg := {
    logdir : option string;
    checkpoint_every : option nat;
    best_checkpoint_every : option nat;
    checkpoint_dir : string;  (* after initialize_checkpointing *)
    variance_scale : R;
    check_for_nans : bool;
    record_amplitudes : bool;
    get_amplitude_fn : option (D -> xr * xr); (* (min, max) of the amplitudes *)
    nchains : nat;
    nhistory_max : nat }.

  (** Entries put on the queue of the checkpoint writer: (directory, name, data). *)
  Definition ckpt_write := (string * string * ckpt)%type.

  (** Checkpointing state threaded through the loop: best metric so far, running energy and
      variance, pending best checkpoint, and everything queued so far (oldest first) on the
      checkpoint writer and on the metrics writer. *)
  Record cstate := {
    cs_metric : xr;
    cs_energy : running;
    cs_variance : running;
    cs_best : option ckpt;
    cs_ckpts : list ckpt_write;
    cs_metrics : list (string * dict) }.

  (** [initialize_checkpointing], checkpoint.py 222-226. *)
  Definition cs_init : cstate :=
    {| cs_metric := PInf; cs_energy := running_init; cs_variance := running_init;
       cs_best := None; cs_ckpts := []; cs_metrics := [] |}.

  Definition queue_ckpt (w : ckpt_write) (c : cstate) : cstate :=
    {| cs_metric := cs_metric c; cs_energy := cs_energy c; cs_variance := cs_variance c;
       cs_best := cs_best c; cs_ckpts := (cs_ckpts c ++ [w])%list; cs_metrics := cs_metrics c |}.
  Definition queue_metrics (w : string * dict) (c : cstate) : cstate :=
    {| cs_metric := cs_metric c; cs_energy := cs_energy c; cs_variance := cs_variance c;
       cs_best := cs_best c; cs_ckpts := cs_ckpts c; cs_metrics := (cs_metrics c ++ [w])%list |}.
  Definition set_windows (e v : running) (c : cstate) : cstate :=
    {| cs_metric := cs_metric c; cs_energy := e; cs_variance := v;
       cs_best := cs_best c; cs_ckpts := cs_ckpts c; cs_metrics := cs_metrics c |}.
  Definition set_best (b : option ckpt) (c : cstate) : cstate :=
    {| cs_metric := cs_metric c; cs_energy := cs_energy c; cs_variance := cs_variance c;
       cs_best := b; cs_ckpts := cs_ckpts c; cs_metrics := cs_metrics c |}.
  Definition set_metric (m : xr) (c : cstate) : cstate :=
    {| cs_metric := m; cs_energy := cs_energy c; cs_variance := cs_variance c;
       cs_best := cs_best c; cs_ckpts := cs_ckpts c; cs_metrics := cs_metrics c |}.

  (** Result of code that may raise: the state reached so far is kept (what was queued before the
      exception is still written, because the writers' [__exit__] runs). *)
  Inductive res (A : Type) := Ret (c : cstate) (a : A) | Raise (c : cstate) (e : exn).
  Global Arguments Ret {A}. Global Arguments Raise {A}.

  (** [_check_for_nans], checkpoint.py 298-310. *)
  Definition check_nans_fn (metrics : dict) (new_params : P) : option bool :=
    match dget metrics "energy_noclip", dget metrics "variance_noclip" with
    | Some e, Some v => Some (isnan e || isnan v || params_have_nan new_params)
    | _, _ => None
    end.

  (** Python [a % b == 0] for b <> 0. *)
  Definition divides_b (b a : nat) : bool := Nat.eqb (a mod b) 0.

  (** [save_metrics_and_regular_checkpoint], checkpoint.py 552-625; returns [nans_detected].
      (The human-readable [checkpoint_str] is not modelled.) *)
  Definition save_metrics_and_regular_checkpoint (g : cfg) (ld : string)
      (epoch : nat) (old : ckpt) (new_params : P) (metrics : dict) (c : cstate) : res bool :=
    let c1 := queue_metrics (ld, metrics) c in                       (* 601 *)
    let sub := path_join ld (checkpoint_dir g) in
    let after (c2 : cstate) : res bool :=
      if check_for_nans g then                                       (* 614-615 *)
        match check_nans_fn metrics new_params with
        | None => Raise c2 KeyError
        | Some true => Ret (queue_ckpt (sub, nans_name epoch, old) c2) true  (* 617-622 *)
        | Some false => Ret c2 false
        end
      else Ret c2 false in
    match checkpoint_every g with                                    (* 604 *)
    | None => after c1
    | Some O => Raise c1 ZeroDivisionError                           (* 605: % 0 *)
    | Some k =>
        if divides_b k (epoch + 1)                                   (* 605 *)
        then after (queue_ckpt (sub, regular_name epoch, old) c1)    (* 606-610 *)
        else after c1
    end.

  (** [track_and_save_best_checkpoint], checkpoint.py 460-549; returns the error adjusted running
      average. *)
  Definition track_and_save_best_checkpoint (g : cfg) (ld : string)
      (epoch : nat) (old : ckpt) (metrics : dict) (c : cstate) : res xr :=
    match best_checkpoint_every g with
    | None => Ret c (cs_metric c)                                    (* 546-547 *)
    | Some k =>                                                      (* 521 *)
        match dget metrics "energy" with
        | None => Raise c KeyError
        | Some e =>
            let en := move_history_window (nhistory_max g) (cs_energy c) e in   (* 524 *)
            match dget metrics "variance" with
            | None => Raise (set_windows en (cs_variance c) c) KeyError
            | Some v =>
                let va := move_history_window (nhistory_max g) (cs_variance c) v in  (* 525 *)
                let c1 := set_windows en va c in
                let err := get_checkpoint_metric (avg en) (avg va)
                             (nchains g * List.length (history en)) (variance_scale g) in  (* 526-528 *)
                let best := if xltb err (cs_metric c) then Some old else cs_best c in  (* 530-537 *)
                match k with
                | O => Raise c1 ZeroDivisionError                    (* 539 *)
                | _ =>
                    match best with
                    | Some b =>
                        if divides_b k (epoch + 1)                   (* 539-540 *)
                        then Ret (set_best None
                                   (queue_ckpt (ld, best_checkpoint_file_name, b) c1)) err  (* 541-545 *)
                        else Ret (set_best best c1) err
                    | None => Ret (set_best None c1) err
                    end
                end
            end
        end
    end.

  (** [_add_amplitude_to_metrics_if_requested], checkpoint.py 248-262. *)
  Definition add_amplitude (g : cfg) (metrics : dict) (new_data : D) : option dict :=
    if record_amplitudes g then
      match get_amplitude_fn g with
      | None => None                                                 (* ValueError, 256 *)
      | Some f => let '(lo, hi) := f new_data in
                  Some (dset (dset metrics "amplitude_min" lo) "amplitude_max" hi)
      end
    else Some metrics.

  (** [save_metrics_and_handle_checkpoints], checkpoint.py 315-457; returns [nans_detected]. *)
  Definition save_metrics_and_handle_checkpoints (g : cfg)
      (epoch : nat) (old : ckpt) (new_params : P) (new_data : D) (metrics : dict)
      (c : cstate) : res bool :=
    match logdir g with
    | None => Ret c false                                            (* 400-407 *)
    | Some ld =>
        match add_amplitude g metrics new_data with                  (* 409-411 *)
        | None => Raise c ValueError
        | Some metrics' =>
            match save_metrics_and_regular_checkpoint g ld epoch old new_params metrics' c with
            | Raise c1 e => Raise c1 e
            | Ret c1 nans =>
                match track_and_save_best_checkpoint g ld epoch old metrics' c1 with
                | Raise c2 e => Raise c2 e
                | Ret c2 err => Ret (set_metric (xmin err (cs_metric c)) c2) nans   (* 452-457 *)
                end
            end
        end
    end.

  (** The mutable variables of the loop (vmc.py 105-161). *)
  Record vstate := { v_params : P; v_opt : S; v_data : D; v_key : K; v_cs : cstate; v_nans : bool }.

  Inductive step_result := Continue (s : vstate) | Break (s : vstate) | Abort_ (s : vstate) (e : exn).

  (** One iteration of the [for] loop, vmc.py 106-161. *)
  Definition epoch_step (g : cfg) (epoch : nat) (s : vstate) : step_result :=
    let old := {| c_epoch := epoch; c_data := v_data s; c_params := v_params s;
                  c_opt := v_opt s; c_key := v_key s |} in           (* 112-115 *)
    let '(accept_ratio, data1, key1) := walker_fn (v_params s) (v_data s) (v_key s) in  (* 117 *)
    let '(params2, data2, opt2, metrics, key2) :=
        update_param_fn (v_params s) data1 (v_opt s) key1 in         (* 119-121 *)
    match metrics with
    | None =>                                                        (* 124-125 *)
        Continue {| v_params := params2; v_opt := opt2; v_data := data2; v_key := key2;
                    v_cs := v_cs s; v_nans := v_nans s |}
    | Some m =>
        let m' := dset m "accept_ratio" accept_ratio in              (* 127 *)
        match save_metrics_and_handle_checkpoints g epoch old params2 data2 m' (v_cs s) with
        | Raise c e =>
            Abort_ {| v_params := params2; v_opt := opt2; v_data := data2; v_key := key2;
                      v_cs := c; v_nans := v_nans s |} e
        | Ret c nans =>
            let s' := {| v_params := params2; v_opt := opt2; v_data := data2; v_key := key2;
                         v_cs := c; v_nans := nans |} in
            if nans then Break s' else Continue s'                   (* 160-161 *)
        end
    end.

  (** [for epoch in range(start_epoch, nepochs)], vmc.py 105: [n] iterations left. *)
  Fixpoint loop (g : cfg) (n epoch : nat) (s : vstate) : step_result :=
    match n with
    | O => Continue s
    | Datatypes.S n' =>
        match epoch_step g epoch s with
        | Continue s' => loop g n' (Datatypes.S epoch) s'
        | r => r
        end
    end.

  (** [finish_checkpointing], checkpoint.py 236-245. *)
  Definition finish_checkpointing (g : cfg) (c : cstate) : cstate :=
    match logdir g, cs_best c with
    | Some ld, Some b => queue_ckpt (ld, best_checkpoint_file_name, b) c
    | _, _ => c
    end.

  (** What [vmc_loop] returns (vmc.py 167) plus what it queued on the two writers, or the exception
      with what had been queued when it was raised. *)
  Inductive run_result :=
  | Finished (params : P) (opt : S) (data : D) (key : K) (nans : bool)
             (ckpts : list ckpt_write) (metrics : list (string * dict))
  | Raised (e : exn) (ckpts : list ckpt_write) (metrics : list (string * dict)).

  (** [vmc_loop], vmc.py 13-167. *)
  Definition vmc_loop (g : cfg) (start_epoch nepochs : nat) (params : P) (opt : S) (data : D) (key : K)
      : run_result :=
    let s0 := {| v_params := params; v_opt := opt; v_data := data; v_key := key;
                 v_cs := cs_init; v_nans := false |} in
    match loop g (nepochs - start_epoch) start_epoch s0 with
    | Abort_ s e => Raised e (cs_ckpts (v_cs s)) (cs_metrics (v_cs s))
    | Continue s | Break s =>
        let c := finish_checkpointing g (v_cs s) in                  (* 163-165 *)
        Finished (v_params s) (v_opt s) (v_data s) (v_key s) (v_nans s) (cs_ckpts c) (cs_metrics c)
    end.
End Loop.

Arguments c_epoch {P D S K}. Arguments c_data {P D S K}. Arguments c_params {P D S K}.
Arguments c_opt {P D S K}. Arguments c_key {P D S K}. Arguments Build_ckpt {P D S K}.
Arguments logdir {D}. Arguments checkpoint_every {D}. Arguments best_checkpoint_every {D}.
Arguments checkpoint_dir {D}. Arguments variance_scale {D}. Arguments check_for_nans {D}.
Arguments record_amplitudes {D}. Arguments get_amplitude_fn {D}. Arguments nchains {D}.
Arguments nhistory_max {D}. Arguments Build_cfg {D}.
Arguments cs_metric {P D S K}. Arguments cs_energy {P D S K}. Arguments cs_variance {P D S K}.
Arguments cs_best {P D S K}. Arguments cs_ckpts {P D S K}. Arguments cs_metrics {P D S K}.
Arguments cs_init {P D S K}. Arguments queue_ckpt {P D S K}. Arguments queue_metrics {P D S K}.
Arguments set_windows {P D S K}. Arguments set_best {P D S K}. Arguments set_metric {P D S K}.
Arguments Ret {P D S K A}. Arguments Raise {P D S K A}.
Arguments check_nans_fn {P}. 
Arguments save_metrics_and_regular_checkpoint {P D S K}.
Arguments track_and_save_best_checkpoint {P D S K}.
Arguments add_amplitude {D}.
Arguments save_metrics_and_handle_checkpoints {P D S K}.
Arguments v_params {P D S K}. Arguments v_opt {P D S K}. Arguments v_data {P D S K}.
Arguments v_key {P D S K}. Arguments v_cs {P D S K}. Arguments v_nans {P D S K}.
Arguments Build_vstate {P D S K}.
Arguments Continue {P D S K}. Arguments Break {P D S K}. Arguments Abort_ {P D S K}.
Arguments epoch_step {P D S K}. Arguments loop {P D S K}.
Arguments finish_checkpointing {P D S K}.
Arguments Finished {P D S K}. Arguments Raised {P D S K}.
Arguments vmc_loop {P D S K}.
