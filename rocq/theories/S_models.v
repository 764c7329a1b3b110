(** * Specification vocabulary for the network properties (C42-C55) *)
From Coq Require Import Reals List Arith Permutation.
From Verif Require Import XReal M_models.
From Verif Require Export S_perm.
Import ListNotations.

(** Running totals of the spin populations: where each population but the last one ends. *)
Fixpoint ends (start : nat) (sizes : list nat) : list nat :=
  match sizes with
  | [] => []
  | [_] => []
  | m :: r => (start + m) :: ends (start + m) r
  end.

(** The spin specification [s] describes populations of the given sizes: either "k equal
    populations" or the list of the positions where they end. *)
Definition describes (s : particle_split) (sizes : list nat) : Prop :=
  sizes <> [] /\
  ((exists k m, s = Equal k /\ sizes = repeat m k) \/ s = At (ends 0 sizes)).

(** Cutting a list into consecutive pieces of given sizes. *)
Fixpoint cut {A} (sizes : list nat) (l : list A) : list (list A) :=
  match sizes with
  | [] => []
  | m :: r => firstn m l :: cut r (skipn m l)
  end.

(** The spin population particle i belongs to. *)
Fixpoint spin_of (sizes : list nat) (i : nat) : nat :=
  match sizes with
  | [] => O
  | m :: r => if Nat.ltb i m then O else S (spin_of r (i - m))
  end.

(** A renumbering of the particles that keeps everybody's spin. *)
Definition keeps_spins (sizes : list nat) (s : nat -> nat) : Prop :=
  renumbering (list_sum sizes) s /\ forall i, i < list_sum sizes -> spin_of sizes (s i) = spin_of sizes i.

(** The list whose i-th entry is the old s(i)-th entry. *)
Definition reorder {A} (s : nat -> nat) (l : list A) : list A :=
  match l with
  | [] => []
  | a :: _ => map (fun i => nth (s i) l a) (seq 0 (length l))
  end.
(** Both indices of a square array renumbered. *)
Definition reorder2 {A} (s : nat -> nat) (l : list (list A)) : list (list A) := map (reorder s) (reorder s l).

(** An (n, d) array, an (n, m, d) array. *)
Definition shape2 (n d : nat) (x : arr2) : Prop := length x = n /\ Forall (fun r => length r = d) x.
Definition shape3 (n m d : nat) (y : arr3) : Prop := length y = n /\ Forall (shape2 m d) y.

(** Exchange of particles i and j. *)
Definition exchange (i j k : nat) : nat := if Nat.eqb k i then j else if Nat.eqb k j then i else k.

(** Number of pairs out of order, and the sign (parity) of a renumbering of 0..n-1. *)
Fixpoint inversions (l : list nat) : nat :=
  match l with
  | [] => O
  | a :: r => length (filter (fun b => Nat.ltb b a) r) + inversions r
  end.
Definition sign_of_list (l : list nat) : R := ((-1) ^ inversions l)%R.
Definition sign_of (n : nat) (s : nat -> nat) : R := sign_of_list (map s (seq 0 n)).

(** ** Jastrow factors *)
From Verif Require Import Rsum.
(** Real configurations as numbers of the model. *)
Definition fin2 (x : list (list R)) : arr2 := map (map Fin) x.
(** Euclidean distance. *)
Definition edist (a b : list R) : R := sqrt (lsum (map (fun p => (fst p - snd p) ^ 2)%R (combine a b))).
(** Sum over all pairs of list members, each pair once. *)
Fixpoint pair_total {A} (f : A -> A -> R) (l : list A) : R :=
  match l with
  | [] => 0%R
  | a :: r => (lsum (map (f a) r) + pair_total f r)%R
  end.
(** Z electrons at every ion. *)
Definition electrons_at_ions {A} (ions : list A) (Z : list nat) : list A := concat (map (fun p => repeat (fst p) (snd p)) (combine ions Z)).

(** ** Log-domain networks: the ordinary real network *)
(** Inner product of the inputs with one column of weights. *)
Definition column (w : nat -> nat -> R) (x : list R) (f : nat) : R := Rsum (length x) (fun i => nth i x 0 * w i f)%R.
(** One hidden layer; row [length x] of the weights is the bias. *)
Definition real_hidden (nd : nat) (act : R -> R) (w : nat -> nat -> R) (x : list R) : list R :=
  map (fun f => act (column w x f + w (length x) f)%R) (seq 0 nd).
Definition real_next (nd : nat) (act : R -> R) (w : nat -> nat -> R) (x : list R) : list R :=
  let y := real_hidden nd act w x in
  if Nat.eqb (length x) nd then map (fun p => (fst p + snd p)%R) (combine y x) else y.
(** No sum of two zeros in a skip connection, and a last hidden layer that is not all zero. *)
Fixpoint no_zero_sums (nd : nat) (act : R -> R) (ws : list (nat -> nat -> R)) (x : list R) : Prop :=
  match ws with
  | [] => exists v, In v x /\ v <> 0%R
  | w :: r =>
      (length x = nd -> forall k, k < nd -> nth k (real_hidden nd act w x) 0%R <> 0%R \/ nth k x 0%R <> 0%R) /\
      no_zero_sums nd act r (real_next nd act w x)
  end.
Definition real_out (nf : nat) (w : nat -> nat -> R) (x : list R) : list R := map (column w x) (seq 0 nf).
Definition real_net (nd nf : nat) (act : R -> R) (ws : list (nat -> nat -> R)) (wf : nat -> nat -> R) (x : list R) : list R :=
  real_out nf wf (fold_left (fun x w => real_next nd act w x) ws x).

(** ** Spin blocks in cyclic order *)
Definition cyclic_from (k b : nat) : list nat := map (fun j => (b + j) mod k) (seq 0 k).
(** Average of every feature over the members of a block. *)
Definition block_average (d : nat) (blk : list (list R)) : list R :=
  map (fun c => (lsum (map (fun r => nth c r 0%R) blk) / INR (length blk))%R) (seq 0 d).
(** Rotation of n particles by o places; rotation of a list of blocks by r blocks. *)
Definition rotation (n o i : nat) : nat := (i + o) mod n.
Definition rotate_blocks {A} (r : nat) (l : list A) : list A := skipn r l ++ firstn r l.
(** The same layer with another spin specification. *)
Definition with_split (sp : particle_split) (p : layer1) : layer1 :=
  Build_layer1 sp (l1_ndense p) (l1_unmixed p) (l1_bias p) (l1_mixed p) (l1_2e p) (l1_attention p) (l1_act p) (l1_skip p) (l1_scale p) (l1_cyclic p).
