(** * Specification vocabulary for batches of walkers (C83) *)
From Coq Require Import Reals List Arith.
From Verif Require Import XReal M_slog M_models M_antisym M_construct M_tensor M_batch S_models S_construct.
Import ListNotations.

(** The batch axes [B] of an array are its leading axes, listed (like all shapes) from the last axis to the first; a position in them
    names one walker. *)
Definition position (b B : list nat) : Prop := Forall2 lt b B.
(** The electron positions of that walker alone, as an array (n, d) without batch axes. *)
Definition walker (n d : nat) (x : tensor) (b : list nat) : tensor := {| shape := [d; n]; entry := fun i => entry x (i ++ b) |}.
(** The same positions as a list of n rows of d numbers. *)
Definition rows (n d : nat) (x : tensor) (b : list nat) : arr2 := map (fun i => map (fun c => entry x (c :: i :: b)) (seq 0 d)) (seq 0 n).
(** Renumbering the electrons of all walkers at once: row i of the new array is row s(i) of the old one. *)
Definition renumber (s : nat -> nat) (x : tensor) : tensor :=
  {| shape := shape x; entry := fun i => match i with c :: k :: b => entry x (c :: s k :: b) | _ => entry x i end |}.
(** Sign and logarithm at one position of a pair of arrays. *)
Definition value_at (y : tensor * tensor) (b : list nat) : slog := (entry (fst y) b, entry (snd y) b).
Definition has_batch (y : tensor * tensor) (B : list nat) : Prop := shape (fst y) = B /\ shape (snd y) = B.
(** Both raise, or both return and the results are related. *)
Definition both {A C} (R : A -> C -> Prop) (a : option A) (c : option C) : Prop :=
  match a, c with Some x, Some y => R x y | None, None => True | _, _ => False end.

(** What the model needs besides fitting the electrons: the determinant function, if there is one, is the ResNet r; the input does not
    consist of unflattened electron-ion differences; there is at least one ion or no ions are given; attention keeps the layer's width. *)
Definition array_ready (r : option det_resnet) (m : ferminet) : Prop :=
  fn_det_fn m = option_map det_resnet_fn r /\
  (so_ion_pos (fn_streams m) = None \/ so_ei_norm (fn_streams m) = true) /\ so_ion_pos (fn_streams m) <> Some [] /\
  (forall k a, In k (fn_backflow m) -> l1_attention (b_one k) = Some a -> at_out a = l1_ndense (b_one k)).
