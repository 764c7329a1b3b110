(** * Specifications for the Markov-chain properties *)
From Coq Require Import Reals List Bool Arith.
From Verif Require Import XReal Rsum.
Import ListNotations.
Local Open Scope R_scope.

(** [n] applications of a step function, one after the other, with the statistic of each. *)
Section Steps.
Context {P D K A : Type}.
Variable step : P -> D -> K -> A * D * K.
Inductive Steps (p : P) : D -> K -> list A -> D -> K -> Prop :=
| Steps_0 d k : Steps p d k [] d k
| Steps_S d k r d1 k1 rs d' k' :
    step p d k = (r, d1, k1) -> Steps p d1 k1 rs d' k' -> Steps p d k (r :: rs) d' k'.
End Steps.

(** The Metropolis ratio for amplitudes [a] (current) and [b] (proposed). *)
Definition metropolis_ratio (a b : R) : R := if Req_EM_T a 0 then 1 else Rmin 1 ((b / a) ^ 2).

(** log|a| as the models return it: -inf at a node. *)
Definition log_abs (a : R) : xr := if Req_EM_T a 0 then MInf else Fin (ln (Rabs a)).

(** ** Markov chains on the states 0 .. n-1 *)

(** A symmetric proposal: [q i j] is the probability of proposing [j] from [i]. *)
Record symmetric_proposal (n : nat) (q : nat -> nat -> R) : Prop := {
  q_nonneg : forall i j, (i < n)%nat -> (j < n)%nat -> 0 <= q i j;
  q_total : forall i, (i < n)%nat -> Rsum n (q i) = 1;
  q_sym : forall i j, (i < n)%nat -> (j < n)%nat -> q i j = q j i }.

(** [a] is the probability that a decision taken from one uniform number in [0,1) says yes: the
    numbers saying yes are exactly those below [a]. *)
Definition yes_probability (decide : R -> bool) (a : R) : Prop :=
  0 <= a <= 1 /\ forall u, 0 <= u < 1 -> (decide u = true <-> u < a).

(** Propose with [q], accept with probability [a], stay otherwise: probability to go from i to j. *)
Definition transition (n : nat) (q a : nat -> nat -> R) (i j : nat) : R :=
  q i j * a i j + (if Nat.eqb i j then Rsum n (fun k => q i k * (1 - a i k)) else 0).

(** The distribution after one and after several steps. *)
Definition push (n : nat) (t : nat -> nat -> R) (mu : nat -> R) (j : nat) : R :=
  Rsum n (fun i => mu i * t i j).
Fixpoint push_n (n : nat) (t : nat -> nat -> R) (steps : nat) (mu : nat -> R) : nat -> R :=
  match steps with O => mu | S s => push n t (push_n n t s mu) end.

(** Standard normal density of a vector. *)
Definition normal_density (z : list R) : R :=
  fold_right Rmult 1 (map (fun t => exp (- (t * t) / 2) / sqrt (2 * PI)) z).

(** ** PRNG keys *)

(** A key is the path of operations that produced it from the root: [jax.random.split(k, n)[i]] or
    [jax.random.fold_in(k, i)].  Different paths are different keys (idealised generator). *)
Inductive key_op := SplitOp (n i : nat) | FoldOp (i : nat).
Definition key := list key_op.

(** [k'] is [k] or was derived from [k]. *)
Definition derived (k k' : key) : Prop := exists s, k' = s ++ k.

(** Keys none of which equals or is derived from another one. *)
Definition unrelated (k k' : key) : Prop := ~ derived k k' /\ ~ derived k' k.
Definition independent (ks : list key) : Prop := ForallOrdPairs unrelated ks.

(** ** Walkers *)
From Verif Require Import M_mcmc.

(** Shapes of random arrays are as requested and uniform numbers lie in [0,1). *)
Record good_prng {K} (g : prng K) : Prop := {
  uniform_length : forall k n, length (uniform g k n) = n;
  uniform_range : forall k n u, In u (uniform g k n) -> 0 <= u < 1;
  normal_shape : forall k shape, map (@length R) (normal g k shape) = shape }.

(** The stored amplitudes are the wavefunction at the stored positions. *)
Definition consistent {P M} (psi : P -> list R -> xr) (p : P) (d : padata M) : Prop :=
  amp d = map (psi p) (pos d).

(** [x] moved by the width [s] times the noise [z]. *)
Definition moved (s : R) (x z : list R) : list R := zipw (fun a b => a + s * b) x z.

(** What one walker may do in one step: take the proposed position together with its amplitude, or
    keep both. *)
Definition walker_step {P} (psi : P -> list R -> xr) (p : P) (rule : xr -> xr -> xr) (s : R)
    (x : list R) (a : xr) (x' : list R) (a' : xr) : Prop :=
  exists z u, length z = length x /\ 0 <= u < 1 /\
    let y := moved s x z in
    if accepts u (rule a (psi p y)) then x' = y /\ a' = psi p y else x' = x /\ a' = a.

(** A history of Metropolis steps and parameter updates. *)
Inductive wop (P : Type) := DoStep | NewParams (p : P).
Arguments DoStep {P}.
Arguments NewParams {P} _.

Section History.
Context {P M K : Type}.
Variables (g : prng K) (model_apply : P -> list (list R) -> list xr).
Variables (get_std : padata M -> R) (upd : option (list M -> list (list bool) -> list M)) (logabs : bool).

(** The state of all walkers and the current parameters after a history. *)
Fixpoint run_ops (ops : list (wop P)) (p : P) (datas : list (padata M)) (keys : list K)
    : P * list (padata M) * list K :=
  match ops with
  | [] => (p, datas, keys)
  | DoStep :: ops =>
      let '(_, datas, keys) := pa_step g model_apply get_std upd logabs p datas keys in
      run_ops ops p datas keys
  | NewParams p' :: ops => run_ops ops p' (map (fun d => update_data_fn model_apply d p') datas) keys
  end.

End History.

(** ** Dynamic step width *)

(** Product f 0 * ... * f (n-1). *)
Fixpoint Rprod (n : nat) (f : nat -> R) : R := match n with O => 1 | S m => Rprod m f * f m end.

(** Fraction of accepted moves among all walkers on all devices in one step. *)
Definition accepted_fraction (masks : list (list bool)) : R :=
  INR (length (filter (fun b => b) (concat masks))) / INR (length (concat masks)).

(** Mean of entries [start .. start+n-1] of a list. *)
Definition window_mean (avgs : list R) (start n : nat) : R :=
  Rsum n (fun i => nth (start + i) avgs 0) / INR n.

(** The factor applied for a windowed acceptance [c]. *)
Definition width_factor (target thr adj c : R) : R :=
  if Rlt_dec (target + thr) c then 1 + adj else if Rlt_dec c (target - thr) then 1 - adj else 1.
