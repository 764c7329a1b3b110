(** * Model of jax.numpy arrays with any number of axes (third party)

    The other models treat one walker at a time.  This file has the arrays the code really handles: they carry any
    number of leading batch axes in front of the axes a layer works on.  An array is its shape and its entries.

    Shapes and indices are listed FROM THE LAST AXIS TO THE FIRST: an array of NumPy shape (2, 5, 3) has
    [shape = [3; 5; 2]].  So NumPy's axis -1, -2, ... are the positions 0, 1, ..., and batch axes are the tail of the list.
    An axis argument k of the functions below stands for NumPy's axis=-k.  [None] is a raised exception.
    Entries outside the shape are never read. *)
From Coq Require Import Reals List Bool Arith.
From Verif Require Import XReal M_slog M_models M_antisym M_construct.
Import ListNotations.

Record tensor := { shape : list nat; entry : list nat -> xr }.

(** Index lists. *)
Definition insert_at (p v : nat) (l : list nat) : list nat := firstn p l ++ v :: skipn p l.
Definition drop_at (p : nat) (l : list nat) : list nat := firstn p l ++ skipn (S p) l.
Definition replace_at (p v : nat) (l : list nat) : list nat := firstn p l ++ v :: skipn (S p) l.
(** Number of entries of an array of shape [l]. *)
Definition size_of (l : list nat) : nat := fold_right Nat.mul 1 l.
Definition list_eqb (s t : list nat) : bool := if list_eq_dec Nat.eq_dec s t then true else false.
(** Size of axis -k; an axis that does not exist raises. *)
Definition axis_size (k : nat) (x : tensor) : option nat := match k with O => None | S p => nth_error (shape x) p end.

(** Elementwise functions (jnp.exp, activations, ...). *)
Definition nd_map (f : xr -> xr) (x : tensor) : tensor := {| shape := shape x; entry := fun i => f (entry x i) |}.

(** NumPy broadcasting: shapes are aligned at the last axis; sizes must agree or be 1; a missing axis is broadcast. *)
Fixpoint broadcast_shape (s t : list nat) : option (list nat) :=
  match s, t with
  | [], _ => Some t
  | _, [] => Some s
  | a :: s', b :: t' =>
      do r <- broadcast_shape s' t';
      if Nat.eqb a b then Some (a :: r) else if Nat.eqb a 1 then Some (b :: r) else if Nat.eqb b 1 then Some (a :: r) else None
  end.
Fixpoint broadcast_index (s i : list nat) : list nat :=
  match s, i with
  | a :: s', k :: i' => (if Nat.eqb a 1 then 0 else k) :: broadcast_index s' i'
  | _, _ => []
  end.
(** x op y for arrays. *)
Definition nd_op (f : xr -> xr -> xr) (x y : tensor) : option tensor :=
  do s <- broadcast_shape (shape x) (shape y);
  Some {| shape := s; entry := fun i => f (entry x (broadcast_index (shape x) i)) (entry y (broadcast_index (shape y) i)) |}.
(** jnp.broadcast_to for a last axis of size 1: (..., 1) -> (..., n). *)
Definition nd_repeat_last (n : nat) (x : tensor) : option tensor :=
  match shape x with
  | a :: s => if Nat.eqb a 1 || Nat.eqb a n
              then Some {| shape := n :: s; entry := fun i => entry x ((if Nat.eqb a 1 then 0 else hd 0 i) :: tl i) |} else None
  | [] => None
  end.

(** jnp.expand_dims(x, axis=-k). *)
Definition nd_expand_dims (x : tensor) (k : nat) : option tensor :=
  match k with
  | O => None
  | S p => if Nat.leb p (length (shape x)) then Some {| shape := insert_at p 1 (shape x); entry := fun i => entry x (drop_at p i) |} else None
  end.

(** Reductions over axis -k (jnp.sum, jnp.mean, jnp.linalg.norm): [g] is applied to the list of entries along the axis. *)
Definition along (p n : nat) (f : list nat -> xr) (i : list nat) : list xr := map (fun c => f (insert_at p c i)) (seq 0 n).
Definition nd_reduce (g : list xr -> xr) (x : tensor) (k : nat) (keepdims : bool) : option tensor :=
  do n <- axis_size k x;
  Some (if keepdims
        then {| shape := replace_at (k - 1) 1 (shape x); entry := fun i => g (along (k - 1) n (entry x) (drop_at (k - 1) i)) |}
        else {| shape := drop_at (k - 1) (shape x); entry := fun i => g (along (k - 1) n (entry x) i) |}).
Definition mean_of (l : list xr) : xr := xdiv (xsum l) (Fin (INR (length l))).

(** jnp.split(x, points, axis=-k): pieces [start, stop), clipped to the axis. *)
Fixpoint bounds (n start : nat) (idx : list nat) : list (nat * nat) :=
  match idx with
  | [] => [(start, n - start)]
  | i :: r => (start, Nat.min (i - start) (n - start)) :: bounds n i r
  end.
Definition split_points (s : particle_split) (n : nat) : option (list nat) :=
  match s with
  | Equal k => if Nat.eqb k 0 then None else if Nat.eqb (n mod k) 0 then Some (map (fun j => (S j * (n / k))) (seq 0 (k - 1))) else None
  | At idx => Some idx
  end.
Definition nd_slice (x : tensor) (p : nat) (b : nat * nat) : tensor :=
  {| shape := replace_at p (snd b) (shape x); entry := fun i => entry x (replace_at p (fst b + nth p i 0) i) |}.
(** core.py 26-28: split. *)
Definition nd_split (x : tensor) (s : particle_split) (k : nat) : option (list tensor) :=
  do n <- axis_size k x;
  do idx <- split_points s n;
  Some (map (nd_slice x (k - 1)) (bounds n 0 idx)).

(** jnp.concatenate(xs, axis=-k): the other axes must agree; an empty list raises. *)
Fixpoint pick (p : nat) (xs : list tensor) (c : nat) (i : list nat) : xr :=
  match xs with
  | [] => NaN
  | x :: r => let n := nth p (shape x) 0 in if Nat.ltb c n then entry x (replace_at p c i) else pick p r (c - n) i
  end.
Definition nd_concatenate (xs : list tensor) (k : nat) : option tensor :=
  match xs with
  | [] => None
  | x :: _ =>
      do n <- axis_size k x;
      if forallb (fun y => Nat.eqb (length (shape y)) (length (shape x)) && list_eqb (drop_at (k - 1) (shape y)) (drop_at (k - 1) (shape x))) xs
      then Some {| shape := replace_at (k - 1) (list_sum (map (fun y => nth (k - 1) (shape y) 0) xs)) (shape x);
                   entry := fun i => pick (k - 1) xs (nth (k - 1) i 0) i |}
      else None
  end.

(** Row-major order: the last axis varies fastest. *)
Fixpoint ravel (s i : list nat) : nat := match s, i with n :: s', k :: i' => k + n * ravel s' i' | _, _ => 0 end.
Fixpoint unravel (s : list nat) (n : nat) : list nat := match s with [] => [] | a :: s' => (n mod a) :: unravel s' (n / a) end.
(** jnp.reshape to a shape without -1. *)
Definition nd_reshape (x : tensor) (s : list nat) : option tensor :=
  if Nat.eqb (size_of s) (size_of (shape x)) then Some {| shape := s; entry := fun i => entry x (unravel (shape x) (ravel s i)) |} else None.
(** jnp.reshape(x, x.shape[:-k] + (-1,)): the missing size is inferred.  Simplification: if the known sizes multiply to 0 (an
    array without walkers or without electrons) this is an exception, as in NumPy; no theorem is about such arrays. *)
Definition nd_flatten_last (x : tensor) (k : nat) : option tensor :=
  let rest := skipn k (shape x) in
  if Nat.eqb (size_of rest) 0 then None else nd_reshape x (size_of (shape x) / size_of rest :: rest).

(** jnp.swapaxes(x, -1, -k). *)
Definition swap_last (k : nat) (l : list nat) : list nat := nth (k - 1) l 0 :: tl (replace_at (k - 1) (hd 0 l) l).
Definition nd_swapaxes (x : tensor) (k : nat) : option tensor :=
  if Nat.leb k (length (shape x)) && Nat.leb 1 k then Some {| shape := swap_last k (shape x); entry := fun i => entry x (swap_last k i) |} else None.
(** jnp.moveaxis(x, -k, 0) and jnp.moveaxis(x, 0, -1). *)
Definition nd_move_to_front (x : tensor) (k : nat) : option tensor :=
  do n <- axis_size k x;
  Some {| shape := drop_at (k - 1) (shape x) ++ [n]; entry := fun i => entry x (insert_at (k - 1) (last i 0) (removelast i)) |}.
Definition nd_move_to_last (x : tensor) : option tensor :=
  match shape x with
  | [] => None
  | _ => Some {| shape := last (shape x) 0 :: removelast (shape x); entry := fun i => entry x (tl i ++ [hd 0 i]) |}
  end.

(** Reductions over the FIRST axis (axis=0) with keepdims=True; jnp.squeeze(x, axis=0). *)
Definition nd_reduce_first (g : list xr -> xr) (x : tensor) : option tensor :=
  match shape x with
  | [] => None
  | s => Some {| shape := removelast s ++ [1]; entry := fun i => g (map (fun c => entry x (removelast i ++ [c])) (seq 0 (last s 0))) |}
  end.
Definition nd_squeeze_first (x : tensor) : option tensor :=
  if Nat.eqb (last (shape x) 0) 1 then Some {| shape := removelast (shape x); entry := fun i => entry x (i ++ [0]) |} else None.
(** jnp.squeeze(x, axis=-1) and jnp.stack(xs, axis=-1): all arrays must have the same shape; an empty list raises. *)
Definition nd_squeeze_last (x : tensor) : option tensor :=
  match shape x with 1 :: s => Some {| shape := s; entry := fun i => entry x (0 :: i) |} | _ => None end.
Definition nd_stack_last (xs : list tensor) : option tensor :=
  match xs with
  | [] => None
  | x :: _ => if forallb (fun y => list_eqb (shape y) (shape x)) xs
              then Some {| shape := length xs :: shape x; entry := fun i => match nth_error xs (hd 0 i) with Some y => entry y (tl i) | None => NaN end |}
              else None
  end.
(** jnp.max over axis 0: raises on an axis of size 0. *)
Definition max_of (l : list xr) : xr := match l with [] => NaN | v :: vs => xmax_list v vs end.
Definition nd_max_first (x : tensor) : option tensor := check (negb (Nat.eqb (last (shape x) 0) 0)) (nd_reduce_first max_of x).

(** jnp.dot(x, w) for a matrix w of NumPy shape (d, f). *)
Definition nd_dot (x w : tensor) : option tensor :=
  match shape x, shape w with
  | d :: s, [f; d'] =>
      if Nat.eqb d d'
      then Some {| shape := f :: s;
                   entry := fun i => xsum (map (fun c => xmul (entry x (c :: tl i)) (entry w [hd 0 i; c])) (seq 0 d)) |}
      else None
  | _, _ => None
  end.

(** The matrix at batch position [i] of an array (..., n, m). *)
Definition matrix_at (x : tensor) (n m : nat) (i : list nat) : arr2 := map (fun r => map (fun c => entry x (c :: r :: i)) (seq 0 m)) (seq 0 n).
(** jnp.linalg.slogdet and jnp.linalg.det of the last two axes. *)
Definition nd_slogdet (x : tensor) : option (tensor * tensor) :=
  match shape x with
  | m :: n :: s =>
      if Nat.eqb m n
      then let value i := match linalg_slogdet (matrix_at x n m i) with Some v => v | None => (NaN, NaN) end in
           Some ({| shape := s; entry := fun i => fst (value i) |}, {| shape := s; entry := fun i => snd (value i) |})
      else None
  | _ => None
  end.
Definition nd_det (x : tensor) : option tensor :=
  match shape x with
  | m :: n :: s =>
      if Nat.eqb m n
      then Some {| shape := s; entry := fun i => match linalg_det (matrix_at x n m i) with Some v => v | None => NaN end |}
      else None
  | _ => None
  end.
(** flax.linen.SelfAttention acts on the last two axes, batched over the others. *)
Definition nd_attention (a : attention_params) (x : tensor) : option tensor :=
  match shape x with
  | m :: n :: s =>
      Some {| shape := at_out a :: n :: s;
              entry := fun i => match i with
                                | c :: r :: i' => nth c (nth r (self_attention a (matrix_at x n m i')) []) NaN
                                | _ => NaN
                                end |}
  | _ => None
  end.

(** A parameter array, from the numbers in it. *)
Definition vector_tensor (n : nat) (f : nat -> xr) : tensor := {| shape := [n]; entry := fun i => f (nth 0 i 0) |}.
(** NumPy shape (n, m), entry (r, c). *)
Definition matrix_tensor (n m : nat) (f : nat -> nat -> xr) : tensor := {| shape := [m; n]; entry := fun i => f (nth 1 i 0) (nth 0 i 0) |}.
Definition scalar_tensor (a : xr) : tensor := {| shape := []; entry := fun _ => a |}.
