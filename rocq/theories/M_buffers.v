(** * The training loop on device buffers (vmcnet/train/vmc.py, vmcnet/utils/checkpoint.py)

    [M_vmc] treats the arrays of a run as values.  Here the loop works on array objects that refer to
    buffers, and a compiled update may delete the buffers of its arguments to reuse their memory
    (kfac_jax does so for the parameters and for the state of the optimiser).  This is what the note
    at vmc.py 111 is about: "jax deletes the old arrays if we don't make copies". *)
From Coq Require Import String List Arith Bool Reals.
From Verif Require Import XReal M_vmc.
Import ListNotations.

Section Buffers.
  (** Contents of one array: shape, dtype and numbers, abstract. *)
  Variable V : Type.

  (** An array object is the number of its buffer.  A buffer that was never allocated, or that was
      deleted, holds nothing.  Numbers from [h_next] on are unused. *)
  Definition loc := nat.
  Record heap := { h_next : nat; h_at : loc -> option V }.

  (** A new array with the given contents. *)
  Definition alloc (h : heap) (v : V) : heap * loc :=
    ({| h_next := S (h_next h); h_at := fun l => if Nat.eqb l (h_next h) then Some v else h_at h l |},
     h_next h).

  (** [x.copy()] for every leaf of a pytree, vmc.py 112, 113 and 115.  A pytree is the list of its
      leaves here: its structure never changes during a run.  Copying a deleted array raises
      ([None]). *)
  Fixpoint copy_leaves (h : heap) (ls : list loc) : option (heap * list loc) :=
    match ls with
    | [] => Some (h, [])
    | l :: r =>
        match h_at h l with
        | None => None
        | Some v =>
            let '(h1, l1) := alloc h v in
            match copy_leaves h1 r with
            | None => None
            | Some (h2, r2) => Some (h2, l1 :: r2)
            end
        end
    end.

  (** The contents of the leaves; [None] if one of them was deleted. *)
  Fixpoint read_leaves (h : heap) (ls : list loc) : option (list V) :=
    match ls with
    | [] => Some []
    | l :: r =>
        match h_at h l, read_leaves h r with
        | Some v, Some vs => Some (v :: vs)
        | _, _ => None
        end
    end.

  (** The walker function and the parameter update as they act on buffers: arbitrary. *)
  Variable walker_fn : heap -> list loc -> list loc -> list loc -> heap * xr * list loc * list loc.
  Variable update_param_fn :
    heap -> list loc -> list loc -> list loc -> list loc
    -> heap * list loc * list loc * list loc * option dict * list loc.
  (** [jnp.any(jnp.isnan(ravel_pytree(new_params)))], checkpoint.py 309. *)
  Variable params_have_nan : list V -> bool.

  (** References to the arrays of a checkpoint, and the contents of a checkpoint file. *)
  Definition refs := ckpt (list loc) (list loc) (list loc) (list loc).
  Definition file := ckpt (list V) (list V) (list V) (list V).

  (** [io.save_vmc_state], io.py 168-176, called by the writer thread (checkpoint.py 168-187): the
      contents of the arrays at that moment, or an exception in the thread ([None]) if one of them
      was deleted.  The copy to the CPU (checkpoint.py 195) is taken to share the buffer, as it does
      when the arrays are on the CPU already. *)
  Definition save_vmc_state (h : heap) (r : refs) : option file :=
    match read_leaves h (c_data r), read_leaves h (c_params r), read_leaves h (c_opt r),
          read_leaves h (c_key r) with
    | Some d, Some p, Some s, Some k =>
        Some {| c_epoch := c_epoch r; c_data := d; c_params := p; c_opt := s; c_key := k |}
    | _, _, _, _ => None
    end.

  Definition file_write := (string * string * option file)%type.

  (** State of the process: buffers, variables of the loop, what the main thread queued ([b_cs]) and
      what the writer thread has written so far. *)
  Record bstate := {
    b_heap : heap;
    b_params : list loc; b_opt : list loc; b_data : list loc; b_key : list loc;
    b_cs : cstate (list loc) (list loc) (list loc) (list loc);
    b_nans : bool;
    b_written : list file_write }.

  (** The writer thread takes the next [n] items of the queue (checkpoint.py 112-113); the queue holds
      what was queued and not yet written. *)
  Definition write_some (n : nat) (h : heap) (queued : list (string * string * refs))
      (done : list file_write) : list file_write :=
    (done ++ map (fun w => (fst w, save_vmc_state h (snd w))) (firstn n (skipn (List.length done) queued)))%list.

  (** How far the writer thread gets: after the copies of an epoch, after the walk, after the update
      and after the checkpoints of that epoch are queued.  Arbitrary. *)
  Variable progress : nat -> nat * nat * nat * nat.

  Inductive bstep_result :=
  | BContinue (s : bstate) | BBreak (s : bstate) | BAbort (s : bstate) (e : exn)
  | BDeleted.   (* RuntimeError: Array has been deleted, raised in the main thread *)

  (** Settings of the loop; the amplitudes (checkpoint.py 256-262) are computed from the contents of
      the arrays. *)
  Definition on_refs (h : heap) (g : cfg (list V)) : cfg (list loc) :=
    {| logdir := logdir g; checkpoint_every := checkpoint_every g;
       best_checkpoint_every := best_checkpoint_every g; checkpoint_dir := checkpoint_dir g;
       variance_scale := variance_scale g; check_for_nans := check_for_nans g;
       record_amplitudes := record_amplitudes g;
       get_amplitude_fn :=
         match get_amplitude_fn g with
         | None => None
         | Some f => Some (fun d => match read_leaves h d with Some v => f v | None => (NaN, NaN) end)
         end;
       nchains := nchains g; nhistory_max := nhistory_max g |}.

  Definition nan_on (h : heap) (p : list loc) : bool :=
    match read_leaves h p with Some v => params_have_nan v | None => true end.

  (** One iteration of the loop, vmc.py 106-161.  [old_data = data.copy()] (114) copies the dictionary
      and not the arrays in it. *)
  Definition bepoch (g : cfg (list V)) (epoch : nat) (s : bstate) : bstep_result :=
    let '(n1, n2, n3, n4) := progress epoch in
    match copy_leaves (b_heap s) (b_params s) with                            (* 112 *)
    | None => BDeleted
    | Some (ha, old_params) =>
    match copy_leaves ha (b_opt s) with                                       (* 113 *)
    | None => BDeleted
    | Some (hb, old_state) =>
    match copy_leaves hb (b_key s) with                                       (* 115 *)
    | None => BDeleted
    | Some (hc, old_key) =>
        let old := {| c_epoch := epoch; c_data := b_data s; c_params := old_params;
                      c_opt := old_state; c_key := old_key |} in
        let q := cs_ckpts (b_cs s) in
        let w1 := write_some n1 hc q (b_written s) in
        let '(hd, accept_ratio, data1, key1) := walker_fn hc (b_params s) (b_data s) (b_key s) in  (* 117 *)
        let w2 := write_some n2 hd q w1 in
        let '(he, params2, data2, opt2, metrics, key2) :=
            update_param_fn hd (b_params s) data1 (b_opt s) key1 in           (* 119-121 *)
        let w3 := write_some n3 he q w2 in
        let next (c : cstate (list loc) (list loc) (list loc) (list loc)) (nans : bool) : bstate :=
          {| b_heap := he; b_params := params2; b_opt := opt2; b_data := data2; b_key := key2;
             b_cs := c; b_nans := nans; b_written := write_some n4 he (cs_ckpts c) w3 |} in
        match metrics with
        | None => BContinue (next (b_cs s) (b_nans s))                        (* 124-125 *)
        | Some m =>
            let m' := dset m "accept_ratio" accept_ratio in                   (* 127 *)
            match save_metrics_and_handle_checkpoints (nan_on he) (on_refs he g) epoch old params2 data2 m'
                    (b_cs s) with
            | Raise c e => BAbort (next c (b_nans s)) e
            | Ret c nans => if nans then BBreak (next c nans) else BContinue (next c nans)  (* 160-161 *)
            end
        end
    end end end.

  (** [for epoch in range(start_epoch, nepochs)], vmc.py 105. *)
  Fixpoint bloop (g : cfg (list V)) (n epoch : nat) (s : bstate) : bstep_result :=
    match n with
    | O => BContinue s
    | S n' =>
        match bepoch g epoch s with
        | BContinue s' => bloop g n' (S epoch) s'
        | r => r
        end
    end.

  (** The loop has ended or raised; the writers are closed: the thread writes what is left in its
      queue (checkpoint.py 117-121), reading the arrays as they are now. *)
  Definition write_rest (h : heap) (queued : list (string * string * refs)) (done : list file_write)
      : list file_write :=
    write_some (List.length queued) h queued done.

  Inductive brun_result :=
  | BFinished (h : heap) (params opt data key : list loc) (nans : bool)
      (files : list file_write) (metrics : list (string * dict))
  | BRaised (e : exn) (files : list file_write) (metrics : list (string * dict))
  | BRunDeleted.

  (** [vmc_loop], vmc.py 13-167. *)
  Definition bvmc_loop (g : cfg (list V)) (start_epoch nepochs : nat) (h : heap)
      (params opt data key : list loc) : brun_result :=
    let s0 := {| b_heap := h; b_params := params; b_opt := opt; b_data := data; b_key := key;
                 b_cs := cs_init; b_nans := false; b_written := [] |} in
    match bloop g (nepochs - start_epoch) start_epoch s0 with
    | BDeleted => BRunDeleted
    | BAbort s e =>
        BRaised e (write_rest (b_heap s) (cs_ckpts (b_cs s)) (b_written s)) (cs_metrics (b_cs s))
    | BContinue s | BBreak s =>
        let c := finish_checkpointing (on_refs (b_heap s) g) (b_cs s) in       (* 163-165 *)
        BFinished (b_heap s) (b_params s) (b_opt s) (b_data s) (b_key s) (b_nans s)
          (write_rest (b_heap s) (cs_ckpts c) (b_written s)) (cs_metrics c)
    end.
End Buffers.
Arguments h_next {V}. Arguments h_at {V}. Arguments Build_heap {V}. Arguments alloc {V}.
Arguments copy_leaves {V}. Arguments read_leaves {V}. Arguments save_vmc_state {V}.
Arguments b_heap {V}. Arguments b_params {V}. Arguments b_opt {V}. Arguments b_data {V}.
Arguments b_key {V}. Arguments b_cs {V}. Arguments b_nans {V}. Arguments b_written {V}.
Arguments Build_bstate {V}. Arguments write_some {V}. Arguments write_rest {V}.
Arguments on_refs {V}. Arguments nan_on {V}.
Arguments BContinue {V}. Arguments BBreak {V}. Arguments BAbort {V}. Arguments BDeleted {V}.
Arguments bepoch {V}. Arguments bloop {V}. Arguments bvmc_loop {V}.
Arguments BFinished {V}. Arguments BRaised {V}. Arguments BRunDeleted {V}.
