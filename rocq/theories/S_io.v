(** * Specification vocabulary for io.py *)
From Coq Require Import List String Bool ZArith.
From Verif Require Import M_io.
Import ListNotations.

(** Every list replaced by the tuple of the same elements, at every depth. *)
Fixpoint tuplify (v : cval) : cval :=
  match v with
  | CList l | CTuple l => CTuple (map tuplify l)
  | CDict l => CDict (map (fun kv => (fst kv, tuplify (snd kv))) l)
  | _ => v
  end.

(** No dictionary anywhere / no list anywhere / no tuple anywhere. *)
Fixpoint dict_free (v : cval) : bool :=
  match v with
  | CList l | CTuple l => forallb dict_free l
  | CDict _ => false
  | _ => true
  end.
Fixpoint list_free (v : cval) : bool :=
  match v with
  | CList _ => false
  | CTuple l => forallb list_free l
  | CDict l => forallb (fun kv => list_free (snd kv)) l
  | _ => true
  end.
Fixpoint tuple_free (v : cval) : bool :=
  match v with
  | CTuple _ => false
  | CList l => forallb tuple_free l
  | CDict l => forallb (fun kv => tuple_free (snd kv)) l
  | _ => true
  end.

(** Dictionaries occur only inside dictionaries, never inside a list or tuple. *)
Fixpoint no_dict_in_seq (v : cval) : bool :=
  match v with
  | CDict l => forallb (fun kv => no_dict_in_seq (snd kv)) l
  | CList l | CTuple l => forallb dict_free l
  | _ => true
  end.

(** The configurations that survive a save and reload unchanged. *)
Fixpoint seq_item_stable (v : cval) : bool :=
  match v with
  | CList _ => false
  | CTuple l => forallb seq_item_stable l
  | CDict l => forallb (fun kv => tuple_free (snd kv)) l
  | _ => true
  end.
Fixpoint stable (v : cval) : bool :=
  match v with
  | CList _ => false
  | CTuple l => forallb seq_item_stable l
  | CDict l => forallb (fun kv => stable (snd kv)) l
  | _ => true
  end.

(** Values numpy stores as a single object: dictionaries and opaque objects. *)
Definition is_object (v : pyval) : bool := match v with PDict _ | PObj _ => true | _ => false end.
