(** * Model of the background writer thread (vmcnet/utils/checkpoint.py, class ThreadedWriter)
      and of file writing under crashes *)
From Coq Require Import List String Arith Bool.
From Verif Require Import XReal M_io M_vmc.
Import ListNotations.

Section Writer.
  Variable A : Type.
  (** [write_ok x = false]: [write_out_data] raises on item [x] (disc full, unwritable directory,
      unserialisable data ...); the exception is not [queue.Empty]. *)
  Variable write_ok : A -> bool.

  (** Program counter of the writer thread, [_run_thread], checkpoint.py 106-122. *)
  Inductive wpc :=
  | WCheck                (* 107: while True and not self._done *)
  | WGet                  (* 112: blocked in self._queue.get(timeout=0.5) *)
  | WWrite (x : A)        (* 113: self.write_out_data(...) *)
  | WDrain                (* 119: while not self._queue.empty() *)
  | WDrainGet             (* 120: self._queue.get(), without a timeout *)
  | WDrainWrite (x : A)   (* 121 *)
  | WExited               (* end of the thread *)
  | WCrashed.             (* thread terminated by an exception *)

  (** Program counter of the main thread: the [with] body (items still to be queued), then
      [__exit__] -> [close_and_await], checkpoint.py 132-146. *)
  Inductive mpc :=
  | MBody (todo : list A)
  | MClose                (* 134: self._done = True *)
  | MJoin                 (* 135: self._thread.join() *)
  | MLeft.                (* __exit__ has returned *)

  Record wstate := {
    queue : list A;       (* the queue.Queue, oldest first *)
    done_ : bool;         (* self._done *)
    wp : wpc;
    mp : mpc;
    aborted : bool;       (* the with body was left by an exception *)
    queued : list A;      (* history: everything put so far *)
    written : list A }.   (* history: everything written successfully so far *)

  (** [__enter__] has started the thread, checkpoint.py 124-126 and 137-140. *)
  Definition w_init (todo : list A) : wstate :=
    {| queue := []; done_ := false; wp := WCheck; mp := MBody todo; aborted := false;
       queued := []; written := [] |}.

  Definition set_wp (s : wstate) (q : list A) (p : wpc) : wstate :=
    {| queue := q; done_ := done_ s; wp := p; mp := mp s; aborted := aborted s;
       queued := queued s; written := written s |}.
  Definition set_written (s : wstate) (p : wpc) (x : A) : wstate :=
    {| queue := queue s; done_ := done_ s; wp := p; mp := mp s; aborted := aborted s;
       queued := queued s; written := written s ++ [x] |}.
  Definition set_mp (s : wstate) (d : bool) (p : mpc) (a : bool) : wstate :=
    {| queue := queue s; done_ := d; wp := wp s; mp := p; aborted := a;
       queued := queued s; written := written s |}.

  (** One atomic step of either thread: an arbitrary scheduler picks any enabled step. *)
  Inductive wstep (s : wstate) : wstate -> Prop :=
  (* main thread *)
  | st_put x todo : mp s = MBody (x :: todo) ->                      (* save_data, 128-130 *)
      wstep s {| queue := queue s ++ [x]; done_ := done_ s; wp := wp s; mp := MBody todo;
                 aborted := aborted s; queued := queued s ++ [x]; written := written s |}
  | st_body_end : mp s = MBody [] -> wstep s (set_mp s (done_ s) MClose (aborted s))
  | st_body_raise todo : mp s = MBody todo -> wstep s (set_mp s (done_ s) MClose true)
  | st_close : mp s = MClose -> wstep s (set_mp s true MJoin (aborted s))
  | st_join : mp s = MJoin -> (wp s = WExited \/ wp s = WCrashed) ->
      wstep s (set_mp s (done_ s) MLeft (aborted s))
  (* writer thread *)
  | st_loop : wp s = WCheck -> done_ s = false -> wstep s (set_wp s (queue s) WGet)
  | st_stop : wp s = WCheck -> done_ s = true -> wstep s (set_wp s (queue s) WDrain)
  | st_get x q : wp s = WGet -> queue s = x :: q -> wstep s (set_wp s q (WWrite x))
  (* queue.Empty after the timeout; allowed at any moment *)
  | st_timeout : wp s = WGet -> wstep s (set_wp s (queue s) WCheck)
  | st_write x : wp s = WWrite x -> write_ok x = true -> wstep s (set_written s WCheck x)
  | st_write_raise x : wp s = WWrite x -> write_ok x = false -> wstep s (set_wp s (queue s) WCrashed)
  | st_drain_end : wp s = WDrain -> queue s = [] -> wstep s (set_wp s [] WExited)
  | st_drain_more x q : wp s = WDrain -> queue s = x :: q -> wstep s (set_wp s (queue s) WDrainGet)
  | st_drain_get x q : wp s = WDrainGet -> queue s = x :: q -> wstep s (set_wp s q (WDrainWrite x))
  | st_drain_write x : wp s = WDrainWrite x -> write_ok x = true -> wstep s (set_written s WDrain x)
  | st_drain_raise x : wp s = WDrainWrite x -> write_ok x = false -> wstep s (set_wp s (queue s) WCrashed).

  (** [n] steps under some schedule. *)
  Inductive wsteps : nat -> wstate -> wstate -> Prop :=
  | wsteps_0 s : wsteps 0 s s
  | wsteps_S n s t u : wstep s t -> wsteps n t u -> wsteps (S n) s u.
End Writer.
Arguments queue {A}. Arguments done_ {A}. Arguments wp {A}. Arguments mp {A}.
Arguments aborted {A}. Arguments queued {A}. Arguments written {A}.
Arguments w_init {A}. Arguments wstep {A}. Arguments wsteps {A}.
Arguments WCheck {A}. Arguments WGet {A}. Arguments WWrite {A}. Arguments WDrain {A}.
Arguments WDrainGet {A}. Arguments WDrainWrite {A}. Arguments WExited {A}. Arguments WCrashed {A}.
Arguments MBody {A}. Arguments MClose {A}. Arguments MJoin {A}. Arguments MLeft {A}.
Arguments set_wp {A}. Arguments set_written {A}. Arguments set_mp {A}.

(** ** Files under crashes *)
Section Disk.
  Variable C : Type.

  (** What a checkpoint path can hold: a partially written (unreadable) npz, or a complete one. *)
  Inductive content := Partial | Complete (c : C).
  Definition path := (string * string)%type.        (* directory, file name *)
  Definition path_eqb (a b : path) : bool := String.eqb (fst a) (fst b) && String.eqb (snd a) (snd b).
  Definition disk := path -> option content.
  Definition disk_set (d : disk) (p : path) (v : content) : disk :=
    fun q => if path_eqb p q then Some v else d q.

  (** [save_vmc_state], io.py 168-176: [open(path, "wb")] truncates the old file in place, the
      archive is written piece by piece, and is only readable once its end is written. *)
  Inductive dop := Truncate (p : path) | Chunk (p : path) | Finish (p : path) (c : C).
  Definition dop_run (d : disk) (o : dop) : disk :=
    match o with
    | Truncate p => disk_set d p Partial
    | Chunk p => disk_set d p Partial
    | Finish p c => disk_set d p (Complete c)
    end.

  (** The file operations of one queued write, [chunks] intermediate writes. *)
  Definition ops_of (chunks : nat) (w : string * string * C) : list dop :=
    let p := fst w in
    Truncate p :: repeat (Chunk p) chunks ++ [Finish p (snd w)].
  Definition all_ops (chunks : nat) (ws : list (string * string * C)) : list dop :=
    flat_map (ops_of chunks) ws.

  (** Disk contents if the process dies after [n] file operations. *)
  Definition crash_disk (d0 : disk) (ops : list dop) (n : nat) : disk :=
    fold_left dop_run (firstn n ops) d0.
End Disk.
Arguments Partial {C}. Arguments Complete {C}. Arguments Truncate {C}. Arguments Chunk {C}.
Arguments Finish {C}. Arguments disk_set {C}. Arguments dop_run {C}. Arguments ops_of {C}.
Arguments all_ops {C}. Arguments crash_disk {C}.
