(** * Specification for the training loop on device buffers

    What a compiled function may do to the arrays of a run: compute, allocate, and delete the buffers
    of the arguments it was told it may reuse. *)
From Coq Require Import List Arith.
From Verif Require Import XReal M_vmc M_buffers.
Import ListNotations.

Section Spec.
  Context {V : Type}.

  (** The arrays are alive and have these contents. *)
  Definition holds (h : heap V) (ls : list loc) (vs : list V) : Prop :=
    Forall2 (fun l v => h_at h l = Some v) ls vs.

  (** Two groups of arrays share no buffer. *)
  Definition apart (a b : list loc) : Prop := forall l, In l a -> ~ In l b.

  (** Every live buffer has been allocated. *)
  Definition sound (h : heap V) : Prop := forall l v, h_at h l = Some v -> l < h_next h.

  (** A result is one of these arguments, passed through, or a new array. *)
  Definition passed_or_new (h : heap V) (args out : list loc) : Prop :=
    forall l, In l out -> In l args \/ h_next h <= l.

  (** Between two moments buffers were allocated, and none outside [may_delete] was changed or
      deleted. *)
  Definition only_deletes (may_delete : list loc) (h h' : heap V) : Prop :=
    sound h' /\ h_next h <= h_next h' /\
    forall l v, h_at h l = Some v -> ~ In l may_delete -> h_at h' l = Some v.

  (** [walk] on buffers computes what [w] computes on values, and deletes at most the old key. *)
  Definition walks
      (walk : heap V -> list loc -> list loc -> list loc -> heap V * xr * list loc * list loc)
      (w : list V -> list V -> list V -> xr * list V * list V) : Prop :=
    forall h p d k pv dv kv h' a d' k',
      sound h -> holds h p pv -> holds h d dv -> holds h k kv ->
      apart d (p ++ k) -> apart k p ->
      walk h p d k = (h', a, d', k') ->
      exists dv' kv',
        w pv dv kv = (a, dv', kv') /\ holds h' d' dv' /\ holds h' k' kv' /\
        only_deletes k h h' /\
        passed_or_new h d d' /\ passed_or_new h k k' /\ apart d' k'.

  (** [update] on buffers computes what [u] computes on values, and deletes at most the old
      parameters, the old state of the optimiser and the old key. *)
  Definition updates
      (update : heap V -> list loc -> list loc -> list loc -> list loc
                -> heap V * list loc * list loc * list loc * option dict * list loc)
      (u : list V -> list V -> list V -> list V -> list V * list V * list V * option dict * list V)
      : Prop :=
    forall h p d s k pv dv sv kv h' p' d' s' m k',
      sound h -> holds h p pv -> holds h d dv -> holds h s sv -> holds h k kv ->
      apart d (p ++ s ++ k) -> apart k (p ++ s) ->
      update h p d s k = (h', p', d', s', m, k') ->
      exists pv' dv' sv' kv',
        u pv dv sv kv = (pv', dv', sv', m, kv') /\
        holds h' p' pv' /\ holds h' d' dv' /\ holds h' s' sv' /\ holds h' k' kv' /\
        only_deletes (p ++ s ++ k) h h' /\
        passed_or_new h (p ++ s) p' /\ passed_or_new h (p ++ s) s' /\
        passed_or_new h d d' /\ passed_or_new h k k' /\
        apart d' (p' ++ s' ++ k') /\ apart k' (p' ++ s').

  (** The files the writer thread produces when it never meets a deleted array: the checkpoints, in
      order, with their contents. *)
  Definition complete_files
      (cs : list (ckpt_write (list V) (list V) (list V) (list V))) : list (file_write V) :=
    map (fun w => (fst w, Some (snd w))) cs.
End Spec.
