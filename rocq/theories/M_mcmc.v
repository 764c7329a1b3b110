(** * Model of the Markov-chain Monte Carlo code: vmcnet/mcmc

    Simplifications, used throughout this file:
    - finite floating-point arithmetic is exact real arithmetic ([xr] keeps NaN and infinities);
    - a walker's position array of shape (nelec, d) is the flat list of its coordinates;
    - one [jax.pmap] program on several devices is a lock-step computation on the list of device
      states; [jax.jit] is the same with a list of one device;
    - parameters are one value (they are replicated, never sharded). *)
From Coq Require Import Reals List Bool Arith.
From Verif Require Import XReal.
Import ListNotations.
Local Open Scope R_scope.

(** Elementwise application of a binary function to two arrays of equal length (jnp broadcasting
    of equal shapes). *)
Fixpoint zipw {A B C} (f : A -> B -> C) (l : list A) (l' : list B) : list C :=
  match l, l' with a :: l, b :: l' => f a b :: zipw f l l' | _, _ => [] end.

(** jnp.mean of a one-dimensional array. *)
Definition xmean (l : list xr) : xr := xdiv (xsum l) (Fin (INR (length l))).

(** ** mcmc/metropolis.py *)

(** metropolis.py 276-286: [metropolis_symmetric_acceptance] with logabs=False, one entry. *)
Definition accept_plain (amplitude proposed : xr) : xr :=
  let prob_old := xmul amplitude amplitude in
  let prob_new := xmul proposed proposed in
  let ratio := xdiv prob_new prob_old in
  if xltb prob_old prob_new || xeqb prob_old (Fin 0) then Fin 1 else ratio.

(** metropolis.py 288-295: the same with logabs=True, one entry. *)
Definition accept_log (amplitude proposed : xr) : xr :=
  let log_prob_old := xmul (Fin 2) amplitude in
  let log_prob_new := xmul (Fin 2) proposed in
  if xltb log_prob_old log_prob_new then Fin 1 else xexp (xsub log_prob_new log_prob_old).

(** metropolis.py 246-295. *)
Definition metropolis_symmetric_acceptance (logabs : bool) (amplitude proposed : list xr) : list xr :=
  zipw (if logabs then accept_log else accept_plain) amplitude proposed.

(** metropolis.py 59-62: [jax.random.uniform(subkey) < accept_prob], one entry. *)
Definition accepts (u : R) (accept_prob : xr) : bool := xltb (Fin u) accept_prob.

(** The pseudo-random number generator: an arbitrary deterministic family of functions of the key.
    [split2 k] is (key, subkey) = jax.random.split(k); [uniform k n] has shape (n,);
    [normal k shape] has the shape of the positions, given as the list of row lengths. *)
Record prng (K : Type) := {
  split2 : K -> K * K;
  uniform : K -> nat -> list R;
  normal : K -> list nat -> list (list R) }.
Arguments split2 {K} _ _.
Arguments uniform {K} _ _ _.
Arguments normal {K} _ _ _.

(** metropolis.py 229-243: [gaussian_proposal]. *)
Definition gaussian_proposal {K} (g : prng K) (positions : list (list R)) (std_move : R) (key : K)
  : list (list R) * K :=
  let (key, subkey) := split2 g key in
  (zipw (zipw (fun x z => x + std_move * z)) positions
     (normal g subkey (map (@length R) positions)), key).

(** metropolis.py 70-114: [walk_data].  The accumulated statistic has an arbitrary numeric type
    [A]: [xr] for one program, a list with one entry per device for a pmapped one. *)
Section Walk.
Context {P D K A : Type}.
Variables (zero : A) (add : A -> A -> A) (divn : A -> nat -> A).

(** metropolis.py 106-111: lax.scan of [step_fn] over [length=nsteps]. *)
Fixpoint walk_scan (metrop_step_fn : P -> D -> K -> A * D * K) (params : P) (nsteps : nat)
    (carry : A * D * K) : A * D * K :=
  match nsteps with
  | O => carry
  | S n =>
      let '(c0, c1, c2) := carry in
      let '(accept_prob, data, key) := metrop_step_fn params c1 c2 in
      walk_scan metrop_step_fn params n (add c0 accept_prob, data, key)
  end.

(** metropolis.py 112-114. *)
Definition walk_data_gen (nsteps : nat) (params : P) (data : D) (key : K)
    (metrop_step_fn : P -> D -> K -> A * D * K) : A * D * K :=
  let '(accept_sum, data, key) := walk_scan metrop_step_fn params nsteps (zero, data, key) in
  (divn accept_sum nsteps, data, key).

(** metropolis.py 143-145: [burning_step]. *)
Definition burning_step (metrop_step_fn : P -> D -> K -> A * D * K) (params : P) (data : D) (key : K)
    : D * K :=
  let '(_, data, key) := metrop_step_fn params data key in (data, key).

(** metropolis.py 201-226: [burn_data]. *)
Fixpoint burn_data (burning : P -> D -> K -> D * K) (nsteps_to_burn : nat) (params : P) (data : D) (key : K)
    : D * K :=
  match nsteps_to_burn with
  | O => (data, key)
  | S n => let (data, key) := burning params data key in burn_data burning n params data key
  end.
End Walk.

(** [walk_data] of a single program (numbers are [xr]). *)
Definition walk_data {P D K} (nsteps : nat) (params : P) (data : D) (key : K)
    (metrop_step_fn : P -> D -> K -> xr * D * K) : xr * D * K :=
  walk_data_gen (Fin 0) xadd (fun x n => xdiv x (Fin (INR n))) nsteps params data key metrop_step_fn.

(** metropolis.py 181-198: the pmapped walker, on all devices in lock step.  The per-device
    accumulator is a list; [pmean_if_pmap] (line 183) replaces every device's ratio by the mean over
    devices and [get_first] (line 195) returns the first copy, i.e. that mean. *)
Definition walker_fn_pmapped {P D K} (nsteps : nat) (metrop_step_fn : P -> D -> K -> list xr * D * K)
    (ndevices : nat) (params : P) (data : D) (key : K) : xr * D * K :=
  let '(ratios, data, key) :=
    walk_data_gen (repeat (Fin 0) ndevices) (zipw xadd) (fun l n => map (fun x => xdiv x (Fin (INR n))) l)
      nsteps params data key metrop_step_fn in
  (xmean ratios, data, key).

(** ** mcmc/position_amplitude_core.py *)

(** position_amplitude_core.py 16-66: PositionAmplitudeData on one device. *)
Record padata (M : Type) := { pos : list (list R); amp : list xr; meta : M }.
Arguments Build_padata {M} _ _ _.
Arguments pos {M} _.
Arguments amp {M} _.
Arguments meta {M} _.

Section PositionAmplitude.
Context {P M K : Type}.
Variables (g : prng K) (model_apply : P -> list (list R) -> list xr).

(** position_amplitude_core.py 105-118: [get_update_data_fn]. *)
Definition update_data_fn (data : padata M) (params : P) : padata M :=
  Build_padata (pos data) (model_apply params (pos data)) (meta data).

(** position_amplitude_core.py 139-175: [make_position_amplitude_gaussian_proposal]. *)
Definition pa_proposal (get_std_move : padata M -> R) (params : P) (data : padata M) (key : K)
    : padata M * K :=
  let std_move := get_std_move data in
  let (proposed_position, key) := gaussian_proposal g (pos data) std_move key in
  (Build_padata proposed_position (model_apply params proposed_position) (meta data), key).

(** position_amplitude_core.py 178-203. *)
Definition pa_acceptance (logabs : bool) (data proposed : padata M) : list xr :=
  metropolis_symmetric_acceptance logabs (amp data) (amp proposed).

(** position_amplitude_core.py 240-247: [mask_on_first_dimension] (jnp.where on the leading axis). *)
Definition mask_on_first {A} (mask : list bool) (old proposal : list A) : list A :=
  zipw (fun (b : bool) (op : A * A) => if b then snd op else fst op) mask (combine old proposal).

(** position_amplitude_core.py 235-261: [update_position_amplitude], on all devices in lock step:
    the metadata update may contain a collective mean over devices. *)
Definition pa_update (upd : option (list M -> list (list bool) -> list M))
    (datas proposed : list (padata M)) (masks : list (list bool)) : list (padata M) :=
  let walkers := zipw (fun mask dp => (mask_on_first mask (pos (fst dp)) (pos (snd dp)),
                                       mask_on_first mask (amp (fst dp)) (amp (snd dp))))
                      masks (combine datas proposed) in
  let metas := match upd with
               | None => map meta proposed
               | Some f => f (map meta datas) masks
               end in
  zipw (fun w m => Build_padata (fst w) (snd w) m) walkers metas.

(** metropolis.py 52-67 with position_amplitude_core.py 266-298: one Metropolis step
    ([make_metropolis_step] applied to the position-amplitude proposal, acceptance and update) on
    all devices in lock step.  Returns the mean acceptance probability per device. *)
Definition pa_step (get_std_move : padata M -> R) (upd : option (list M -> list (list bool) -> list M))
    (logabs : bool) (params : P) (datas : list (padata M)) (keys : list K)
    : list xr * list (padata M) * list K :=
  let splits := map (split2 g) keys in
  let props := zipw (fun d ks => pa_proposal get_std_move params d (fst ks)) datas splits in
  let accs := zipw (fun d pr => pa_acceptance logabs d (fst pr)) datas props in
  let masks := zipw (fun ks acc => zipw accepts (uniform g (snd ks) (length acc)) acc) splits accs in
  (map xmean accs, pa_update upd datas (map fst props) masks, map snd props).
End PositionAmplitude.

(** ** mcmc/dynamic_width_position_amplitude.py *)

(** dynamic_width_position_amplitude.py 18-35: MoveMetadata. *)
Record move_metadata := { std_move : R; acc_sum : R; moves : nat }.

(** dynamic_width_position_amplitude.py 101-117: [adjust_std_move]. *)
Definition adjust_std_move (target thr adj : R) (old avg : R) : R :=
  let std := if Rltb (target + thr) avg then old * (1 + adj) else old in
  if Rltb avg (target - thr) then std * (1 - adj) else std.

(** jnp.mean of a boolean mask. *)
Definition mask_mean (mask : list bool) : R :=
  INR (length (filter (fun b => b) mask)) / INR (length mask).

(** utils/distribute.py 63-65: [mean_all_local_devices]: the mean over devices of the local means. *)
Definition mean_all_devices (masks : list (list bool)) : R :=
  fold_right Rplus 0 (map mask_mean masks) / INR (length masks).

(** dynamic_width_position_amplitude.py 144-173: [update_move_metadata] on one device, given the
    acceptance averaged over all devices. *)
Definition update_move_metadata1 (nmoves_per_update : nat) (adjust : R -> R -> R)
    (current_avg : R) (m : move_metadata) : move_metadata :=
  let s := acc_sum m + current_avg in
  let n := S (moves m) in
  if Nat.leb nmoves_per_update n
  then {| std_move := adjust (std_move m) (s / INR n); acc_sum := 0; moves := 0 |}
  else {| std_move := std_move m; acc_sum := s; moves := n |}.

(** dynamic_width_position_amplitude.py 122-175 on all devices in lock step (line 151 is the
    collective mean). *)
Definition update_move_metadata (nmoves_per_update : nat) (adjust : R -> R -> R)
    (ms : list move_metadata) (masks : list (list bool)) : list move_metadata :=
  map (update_move_metadata1 nmoves_per_update adjust (mean_all_devices masks)) ms.

(** dynamic_width_position_amplitude.py 178-212: [make_dynamic_pos_amp_gaussian_step]. *)
Definition dynamic_step {P K} (g : prng K) (model_apply : P -> list (list R) -> list xr)
    (nmoves_per_update : nat) (adjust : R -> R -> R) (logabs : bool) :=
  pa_step g model_apply (fun d => std_move (meta d))
    (Some (update_move_metadata nmoves_per_update adjust)) logabs.
