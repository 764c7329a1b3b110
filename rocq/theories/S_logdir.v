(** * Specification vocabulary for the log directories of a sequence of jobs *)
From Coq Require Import String List Bool.
From Verif Require Import M_io M_config M_logdir.
Import ListNotations.
Local Open Scope string_scope.

(** A sound file system: whatever exists lies in a directory that exists. *)
Definition sound {Rest} (s : fs Rest) : Prop :=
  forall p c, node_at s (p ++ [c]) <> None -> node_at s p = Some Dir.

(** A path whose last component ends in ".json". *)
Definition json_path (p : list string) : Prop :=
  exists d n, p = (d ++ [n])%list /\ ends_with ".json" n = true.

(** Histories in which only the library writes JSON files: the other files written have a name
    without separator that does not end in ".json". *)
Fixpoint no_sep (s : string) : bool :=
  match s with EmptyString => true | String c r => negb (Ascii.eqb c sep) && no_sep r end.
Definition no_foreign_json {Rest} (h : list (event Rest)) : Prop :=
  forall d n id, In (WriteOther d n id) h -> no_sep n = true /\ ends_with ".json" n = false.

(** The names a saved configuration can have in its log directory. *)
Definition config_name (n : string) : Prop :=
  n = "config.json" \/ exists i, 1 <= i /\ n = "config_" ++ str_nat i ++ ".json".
