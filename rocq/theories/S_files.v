(** * Specification vocabulary for metric files *)
From Coq Require Import List String.
From Verif Require Import XReal M_io M_vmc.
Import ListNotations.
Local Open Scope string_scope.

(** The lines of the text file of metric [name] (none if the file does not exist). *)
Definition lines_of {A} (d : dir A) (name : string) : list A :=
  match dir_get d (name ++ ".txt") with Some t => t | None => [] end.

(** A metrics dictionary is a Python dict: every key once. *)
Definition is_dict (m : dict) : Prop := NoDup (map fst m).
Definition dicts_only {P D S K} (update_param_fn : P -> D -> S -> K -> P * D * S * option dict * K) : Prop :=
  forall p d s k m, snd (fst (update_param_fn p d s k)) = Some m -> is_dict m.
