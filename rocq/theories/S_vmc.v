(** * Specification vocabulary for the VMC loop, independent of the checkpointing model.

    The run is described only through the user's two functions. *)
From Coq Require Import List String Arith Bool Reals.
From Verif Require Import XReal M_io M_vmc.
Import ListNotations.
Local Open Scope string_scope.

Section Spec.
  Variables P D S K : Type.
  Variable walker_fn : P -> D -> K -> xr * D * K.
  Variable update_param_fn : P -> D -> S -> K -> P * D * S * option dict * K.
  Variable params_have_nan : P -> bool.

  (** Full state of a run: parameters, optimizer state, walker data, key. *)
  Definition rstate := (P * S * D * K)%type.

  (** One epoch of pure computation: walk, then update. *)
  Definition one_epoch (x : rstate) : rstate :=
    let '(p, s, d, k) := x in
    let '(_, d1, k1) := walker_fn p d k in
    let '(p2, d2, s2, _, k2) := update_param_fn p d1 s k1 in
    (p2, s2, d2, k2).

  (** The state after [n] epochs. *)
  Definition state_after (n : nat) (x : rstate) : rstate := Nat.iter n one_epoch x.

  (** The metrics the epoch starting in [x] reports, including the acceptance ratio. *)
  Definition metrics_at (x : rstate) : option dict :=
    let '(p, s, d, k) := x in
    let '(a, d1, k1) := walker_fn p d k in
    let '(_, _, _, m, _) := update_param_fn p d1 s k1 in
    option_map (fun m => dset m "accept_ratio" a) m.

  (** Value of a metric that is known to be present. *)
  Definition mval (name : string) (x : rstate) : xr :=
    match metrics_at x with
    | Some m => match dget m name with Some v => v | None => NaN end
    | None => NaN
    end.

  Definition has_metrics (x : rstate) : bool :=
    match metrics_at x with Some _ => true | None => false end.

  (** The epoch starting in [x] produces a NaN: in the reported unclipped energy or variance, or in
      the new parameters. *)
  Definition nan_epoch (x : rstate) : bool :=
    has_metrics x &&
    (isnan (mval "energy_noclip" x) || isnan (mval "variance_noclip" x)
     || params_have_nan (let '(p, _, _, _) := one_epoch x in p)).

  (** The update function reports either nothing or the four required metrics (this is what
      vmcnet's own update functions do). *)
  Definition metrics_complete : Prop :=
    forall p d s k m, snd (fst (update_param_fn p d s k)) = Some m ->
      (exists v, dget m "energy" = Some v) /\ (exists v, dget m "variance" = Some v) /\
      (exists v, dget m "energy_noclip" = Some v) /\ (exists v, dget m "variance_noclip" = Some v).

  (** The epochs (counted from the start of the run) before [r] that reported metrics. *)
  Definition recorded (x0 : rstate) (r : nat) : list nat :=
    filter (fun i => has_metrics (state_after i x0)) (seq 0 r).

  (** A checkpoint record holding state [x] and epoch number [e]. *)
  Definition ckpt_of (e : nat) (x : rstate) : ckpt P D S K :=
    let '(p, s, d, k) := x in
    {| c_epoch := e; c_data := d; c_params := p; c_opt := s; c_key := k |}.

  (** [RunsFor f n r b]: a loop of at most [n] iterations that stops right after the first
      iteration [i] with [f i = true] performs [r] iterations; [b] says whether it was stopped. *)
  Definition RunsFor (f : nat -> bool) (n r : nat) (b : bool) : Prop :=
    (b = false /\ r = n /\ forall i, i < n -> f i = false) \/
    (b = true /\ exists i, r = i + 1 /\ i < n /\ f i = true /\ forall j, j < i -> f j = false).
End Spec.

Arguments one_epoch {P D S K}. Arguments state_after {P D S K}. Arguments metrics_at {P D S K}.
Arguments mval {P D S K}. Arguments has_metrics {P D S K}. Arguments nan_epoch {P D S K}.
Arguments recorded {P D S K}. Arguments metrics_complete {P D S K}. Arguments ckpt_of {P D S K}.

(** A configuration the program accepts: positive intervals, an amplitude getter if amplitudes are
    to be recorded. *)
Definition valid_cfg {D} (g : cfg D) : Prop :=
  checkpoint_every g <> Some 0 /\ best_checkpoint_every g <> Some 0 /\
  (record_amplitudes g = true -> get_amplitude_fn g <> None).

(** Kinds of checkpoint files, by name. *)
Definition is_regular_name (n : string) : bool :=
  match n with String c _ => (Nat.leb 48 (Ascii.nat_of_ascii c) && Nat.leb (Ascii.nat_of_ascii c) 57) | _ => false end.
Definition is_nans_name (n : string) : bool := String.prefix "nans_" n.
Definition is_best_name (n : string) : bool := String.eqb n "best_checkpoint.npz".

(** All writes to files whose name satisfies [f], in order. *)
Definition writes_named {P D S K} (f : string -> bool) (l : list (ckpt_write P D S K)) :=
  filter (fun w => f (snd (fst w))) l.

(** The last write to a file whose name satisfies [f]: what the file finally holds. *)
Definition last_write {P D S K} (f : string -> bool) (l : list (ckpt_write P D S K)) :=
  hd_error (rev (writes_named f l)).

(** Mean of a non-empty list of reals. *)
Definition rsum (l : list R) : R := fold_right Rplus 0%R l.
Definition rmean (l : list R) : R := (rsum l / INR (List.length l))%R.

(** The last [k] elements of a list. *)
Definition lastn {A} (k : nat) (l : list A) : list A := skipn (List.length l - k) l.

(** The documented error-adjusted running average, on real numbers: mean energy of the retained
    window plus sqrt(mean variance * scale / number of samples). [es], [vs] are all values so far. *)
Definition window_metric {D} (g : cfg D) (es vs : list R) : R :=
  let we := lastn (nhistory_max g - 1) es in
  let wv := lastn (nhistory_max g - 1) vs in
  let ns := nchains g * List.length we in
  if Rleb (variance_scale g) 0 then rmean we
  else if Nat.eqb ns 0 then rmean we
  else (rmean we + sqrt (rmean wv / (INR ns / variance_scale g)))%R.
