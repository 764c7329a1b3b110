(** * What a curvature factor should be *)
From Coq Require Import Reals List Bool Arith ZArith Permutation.
From Verif Require Import Rsum M_kfac.
Import ListNotations.
Local Open Scope R_scope.

(** All indices of an array of shape [s] (listed like the shape, last axis first). *)
Fixpoint indices (s : list nat) : list (list nat) :=
  match s with [] => [[]] | n :: s' => concat (map (fun i => map (fun k => k :: i) (seq 0 n)) (indices s')) end.

(** The vector a dense layer is applied to at the place [p] of the batch: features [d], and a constant 1 if the layer has a bias. *)
Definition layer_input (with_bias : bool) (d : nat) (x : rtensor) (p : list nat) (i : nat) : R :=
  if Nat.ltb i d then rentry x (i :: p) else if with_bias then 1 else 0.
Definition layer_tangent (dy : rtensor) (p : list nat) (i : nat) : R := rentry dy (i :: p).

(** The second moment of a family of vectors over all places: the mean of v v^T. *)
Definition second_moment (places : list (list nat)) (v : list nat -> nat -> R) (i k : nat) : R :=
  lsum (map (fun p => v p i * v p k) places) / INR (length places).

(** One call of the update: the arrays of a batch, the two averaging weights and the batch size. *)
Record batch := { b_x : rtensor; b_dy : rtensor; b_old : R; b_new : R; b_size : nat }.
(** Arrays of a layer with d inputs and m outputs, applied at all places of shape [s], whose first axis is the batch. *)
Definition layer_batch (d m : nat) (b : batch) (s : list nat) : Prop :=
  rshape (b_x b) = d :: s /\ rshape (b_dy b) = m :: s /\ s <> [] /\ last s O = b_size b /\ (forall n, In n s -> (0 < n)%nat).

Fixpoint updates (with_bias : bool) (st : factors) (bs : list batch) : option factors :=
  match bs with
  | [] => Some st
  | b :: r => match repeated_dense_update with_bias st (b_x b) (b_dy b) (b_old b) (b_new b) (b_size b) with
              | Some st' => updates with_bias st' r | None => None end
  end.

(** The averaging weights of the batches, oldest first: a batch enters with its new weight and is multiplied by the old weights of all later ones. *)
Fixpoint batch_weights (bs : list batch) : list R :=
  match bs with [] => [] | b :: r => b_new b * fold_right Rmult 1 (map b_old r) :: batch_weights r end.
Fixpoint weighted (ws : list R) (vs : list R) : R :=
  match ws, vs with w :: ws', v :: vs' => w * v + weighted ws' vs' | _, _ => 0 end.

Definition symmetric (n : nat) (a : matrix) : Prop := forall i k, (i < n)%nat -> (k < n)%nat -> a i k = a k i.
Definition positive_semidefinite (n : nat) (a : matrix) : Prop :=
  forall c : nat -> R, 0 <= Rsum n (fun i => Rsum n (fun k => c i * a i k * c k)).

(** The inner product of two arrays of the parameter's shape (k, m, j, n). *)
Definition inner (q : qmc_dims) (v w : weight_array) : R :=
  Rsum (q_j q) (fun j => Rsum (q_k q) (fun k => Rsum (q_m q) (fun m => Rsum (q_n q) (fun n => v k m j n * w k m j n)))).
(** The block-diagonal Kronecker product: for each j, A_j acts on the index k and B_j on the pair (m, n). *)
Definition kronecker (q : qmc_dims) (a b : matrices) (v : weight_array) : weight_array := fun k m j n =>
  Rsum (q_k q) (fun k' => Rsum (q_m q) (fun m' => Rsum (q_n q) (fun n' => a j k k' * b j (m' * q_n q + n')%nat (m * q_n q + n)%nat * v k' m' j n'))).
Definition same_array (q : qmc_dims) (v w : weight_array) : Prop :=
  forall k m j n, (k < q_k q)%nat -> (m < q_m q)%nat -> (j < q_j q)%nat -> (n < q_n q)%nat -> v k m j n = w k m j n.

(** Calls of the update of a QmcBlockedDense block. *)
Record qmc_batch := { qb_x : nat -> nat -> nat -> nat -> R; qb_dy : nat -> nat -> nat -> nat -> nat -> R; qb_n : nat; qb_i : nat; qb_old : R; qb_new : R }.
Fixpoint qmc_updates (q : qmc_dims) (st : qmc_state) (bs : list qmc_batch) : option qmc_state :=
  match bs with
  | [] => Some st
  | b :: r => match qmc_update q st (qb_n b) (qb_i b) (qb_x b) (qb_dy b) (qb_old b) (qb_new b) (qb_n b) with Some st' => qmc_updates q st' r | None => None end
  end.
(** The second moment of vectors indexed by the walker and the particle of a batch. *)
Definition qmc_moment (b : qmc_batch) (v : nat -> nat -> nat -> R) (i k : nat) : R :=
  Rsum (qb_n b) (fun t => Rsum (qb_i b) (fun e => v t e i * v t e k)) / INR (qb_n b * qb_i b).
(** The tangents at one j, with the two axes m and n counted as one. *)
Definition qmc_merged (q : qmc_dims) (b : qmc_batch) (j t e c : nat) : R := qb_dy b t e j (c / q_n q)%nat (c mod q_n q)%nat.
(** The averaging weights of the batches, oldest first, as for batch_weights. *)
Fixpoint qmc_weights (bs : list qmc_batch) : list R :=
  match bs with [] => [] | b :: r => qb_new b * fold_right Rmult 1 (map qb_old r) :: qmc_weights r end.
(** a' is a right inverse of a. *)
Definition right_inverse (n : nat) (a a' : matrix) : Prop := forall i k, (i < n)%nat -> (k < n)%nat -> Rsum n (fun l => a i l * a' l k) = if Nat.eqb i k then 1 else 0.
