(** * Model of vmcnet/utils/io.py *)
From Coq Require Import List String Ascii Arith ZArith Bool DecimalString.
Import ListNotations.
Local Open Scope string_scope.

(** Python [str(n)] for a natural number (decimal, no leading zeros). *)
Definition str_nat (n : nat) : string := NilEmpty.string_of_uint (Nat.to_uint n).

(** [os.sep] on POSIX. *)
Definition sep : ascii := "/"%char.

Fixpoint last_is_sep (s : string) : bool :=
  match s with
  | EmptyString => false
  | String c EmptyString => Ascii.eqb c sep
  | String _ r => last_is_sep r
  end.

Definition first_is_sep (s : string) : bool :=
  match s with String c _ => Ascii.eqb c sep | EmptyString => false end.

(** [os.path.join(a, b)] for two components (posixpath.join). *)
Definition path_join (a b : string) : string :=
  if first_is_sep b then b
  else if String.eqb a "" || last_is_sep a then a ++ b
  else a ++ "/" ++ b.

(** [s.rstrip(os.sep)]: remove all trailing separators. *)
Fixpoint rstrip_sep (s : string) : string :=
  match s with
  | EmptyString => EmptyString
  | String c r =>
      match rstrip_sep r with
      | EmptyString => if Ascii.eqb c sep then EmptyString else String c EmptyString
      | r' => String c r'
      end
  end.

(** [add_suffix_for_uniqueness], io.py 201-217.  The file system is the oracle [exists_]
    ([os.path.exists]).  The unbounded [while] is recursion on fuel; running out of fuel is [None]
    and the theorems show it does not happen on finite directories. *)
Fixpoint suffix_loop (exists_ : string -> bool) (base_dir rel suffix : string)
    (fuel i : nat) (cur : string) : option string :=
  match fuel with
  | O => None
  | S f =>
      if exists_ (path_join base_dir (cur ++ suffix))            (* 212 *)
      then suffix_loop exists_ base_dir rel suffix f (S i)
             (rel ++ "_" ++ str_nat (S i))                       (* 213-214 *)
      else Some cur                                              (* 217 *)
  end.

Definition add_suffix_for_uniqueness (exists_ : string -> bool)
    (fuel : nat) (rel base_dir suffix : string) : option string :=
  suffix_loop exists_ base_dir rel suffix fuel 0 (rstrip_sep rel).   (* 210-211 *)

(** ** Text files of metrics *)

(** A text file is the list of its lines; a directory is an association list of files. *)
Section Txt.
  Variable line : Type.
  Definition txt := list line.
  Definition dir := list (string * txt).

  Fixpoint dir_get (d : dir) (n : string) : option txt :=
    match d with
    | [] => None
    | (m, t) :: r => if String.eqb m n then Some t else dir_get r n
    end.

  (** open(..., "w") then writelines: replace or create. *)
  Fixpoint dir_set (d : dir) (n : string) (t : txt) : dir :=
    match d with
    | [] => [(n, t)]
    | (m, u) :: r => if String.eqb m n then (m, t) :: r else (m, u) :: dir_set r n t
    end.

  (** [append_metric_to_file], io.py 29-34: open_or_create with "a", one row (reshape((1,-1))). *)
  Definition append_metric_to_file (d : dir) (name : string) (row : line) : dir :=
    let f := name ++ ".txt" in
    match dir_get d f with
    | Some t => dir_set d f (t ++ [row])%list
    | None => dir_set d f [row]
    end.

  (** Python [n.endswith(".txt")]. *)
  Fixpoint ends_with (suf s : string) : bool :=
    String.eqb s suf ||
    match s with EmptyString => false | String _ r => ends_with suf r end.

  (** Python ["git_hash" in n]. *)
  Fixpoint contains (sub s : string) : bool :=
    String.prefix sub s ||
    match s with EmptyString => false | String _ r => contains sub r end.

  Definition copied_name (n : string) : bool :=
    ends_with ".txt" n && negb (contains "git_hash" n).             (* 40 *)

  (** [if truncate: lines = lines[:truncate]], io.py 52-53.  [None] and [Some 0] are both falsy. *)
  Definition truncate_lines (truncate : option nat) (t : txt) : txt :=
    match truncate with
    | Some (S k) => firstn (S k) t
    | _ => t
    end.

  (** [copy_txt_stats], io.py 37-56.  [src] is the listing of the source directory (so the
      [os.path.exists(source_path)] test at 47 is always true), [tgt] the target directory. *)
  Definition copy_txt_stats (src tgt : dir) (truncate : option nat) : dir :=
    fold_left
      (fun acc nt => dir_set acc (fst nt) (truncate_lines truncate (snd nt)))
      (filter (fun nt => copied_name (fst nt)) src) tgt.

  (** Same function when source and target are the same directory (same_logdir=True): every file
      is read, truncated and rewritten in place. *)
  Definition copy_txt_stats_same (d : dir) (truncate : option nat) : dir :=
    map (fun nt => if copied_name (fst nt)
                   then (fst nt, truncate_lines truncate (snd nt)) else nt) d.
End Txt.
Arguments dir_get {line}. Arguments dir_set {line}.
Arguments append_metric_to_file {line}. Arguments truncate_lines {line}.
Arguments copy_txt_stats {line}. Arguments copy_txt_stats_same {line}.

(** ** Configurations and JSON *)

(** Python values that occur in configurations.  Numbers are integers here (their values play no
    role); dictionaries are association lists in insertion order. *)
Inductive cval : Type :=
| CNone | CBool (b : bool) | CNum (z : Z) | CStr (s : string)
| CList (l : list cval) | CTuple (l : list cval) | CDict (l : list (string * cval)).

(** What a JSON dump followed by a JSON parse does: tuples become lists at every depth
    ([_config_dict_write] io.py 59-61, [json.load] io.py 113). *)
Fixpoint json_roundtrip (v : cval) : cval :=
  match v with
  | CList l | CTuple l => CList (map json_roundtrip l)
  | CDict l => CDict (map (fun kv => (fst kv, json_roundtrip (snd kv))) l)
  | _ => v
  end.

(** [_convert_to_tuple_if_list], io.py 91-94. *)
Fixpoint convert_to_tuple_if_list (v : cval) : cval :=
  match v with
  | CList l => CTuple (map convert_to_tuple_if_list l)
  | _ => v
  end.

(** [_convert_dict_lists_to_tuples], io.py 97-102: jax.tree_map with lists as leaves.  A tree_map
    recurses into dictionaries (and tuples), stops at lists and other leaves.  (Key order is
    sorted by jax; not modelled, dictionaries are compared by content in Python.) *)
Fixpoint convert_dict_lists_to_tuples (v : cval) : cval :=
  match v with
  | CDict l => CDict (map (fun kv => (fst kv, convert_dict_lists_to_tuples (snd kv))) l)
  | CTuple l => CTuple (map convert_dict_lists_to_tuples l)
  | CList l => convert_to_tuple_if_list v
  | _ => v
  end.

(** save_config_dict_to_json then [load_config_dict], io.py 83-85 and 105-115. *)
Definition save_then_load_config (v : cval) : cval :=
  convert_dict_lists_to_tuples (json_roundtrip v).

(** ** Checkpoint serialisation *)

(** Python objects that can occur in a checkpoint.  [PArr a] is a numeric numpy/jax array with
    content [a]; [PObj n] an opaque Python object (e.g. a FrozenDict or None). *)
Inductive pyval : Type :=
| PInt (z : Z)
| PArr (a : list Z)
| PObj (n : nat)
| PDict (l : list (string * pyval))
| PTuple (l : list pyval)
| PList (l : list pyval).

(** Arrays as produced by [np.asanyarray] inside [np.savez]: a 0-d array around an integer or an
    arbitrary object, a numeric array, or - for a tuple or list - a sequence array, which forgets
    whether it was a tuple or a list (this is why the code wraps the optimizer state).
    Simplification: sequences of arrays become a sequence array of their elements. *)
Inductive npval : Type :=
| N0int (z : Z) | N0obj (v : pyval) | Nnum (a : list Z) | Nseq (l : list pyval).

Definition np_asarray (v : pyval) : npval :=
  match v with
  | PInt z => N0int z
  | PArr a => Nnum a
  | PObj _ | PDict _ => N0obj v
  | PTuple l | PList l => Nseq l
  end.

(** [.tolist()]. *)
Definition np_tolist (n : npval) : pyval :=
  match n with
  | N0int z => PInt z
  | N0obj v => v
  | Nnum a => PList (map PInt a)
  | Nseq l => PList l
  end.

Definition is_object_dtype (n : npval) : bool :=
  match n with N0obj _ | Nseq _ => true | _ => false end.

(** An array object as Python value (reading [npz_data["d"]] or [npz_data["k"]] without tolist). *)
Definition np_as_py (n : npval) : pyval :=
  match n with Nnum a => PArr a | N0int z => PArr [z] | _ => np_tolist n end.

Record ckpt_py := { cp_epoch : pyval; cp_data : pyval; cp_params : pyval; cp_opt : pyval; cp_key : pyval }.
Record npz := { z_e : npval; z_d : npval; z_p : npval; z_o : npval; z_k : npval }.

(** [wrap_singleton], io.py 134-140. *)
Definition wrap_singleton (x : pyval) : pyval := PDict [("single_element", x)].

(** [unwrap_if_singleton], io.py 143-151. *)
Definition unwrap_if_singleton (x : pyval) : pyval :=
  match x with
  | PDict [(k, v)] => if String.eqb k "single_element" then v else x
  | _ => x
  end.

(** [process_checkpoint_data_for_saving] with is_distributed=False, io.py 118-131. *)
Definition process_checkpoint_data_for_saving (c : ckpt_py) : ckpt_py :=
  {| cp_epoch := cp_epoch c; cp_data := cp_data c; cp_params := cp_params c;
     cp_opt := wrap_singleton (cp_opt c); cp_key := cp_key c |}.

(** [save_vmc_state], io.py 154-176 (the content of the file). *)
Definition save_vmc_state (c : ckpt_py) : npz :=
  {| z_e := np_asarray (cp_epoch c); z_d := np_asarray (cp_data c);
     z_p := np_asarray (cp_params c); z_o := np_asarray (cp_opt c); z_k := np_asarray (cp_key c) |}.

(** [reload_vmc_state], io.py 179-198. *)
Definition reload_vmc_state (z : npz) : ckpt_py :=
  {| cp_epoch := np_tolist (z_e z);
     cp_data := (if is_object_dtype (z_d z) then np_tolist (z_d z) else np_as_py (z_d z));
     cp_params := np_tolist (z_p z);
     cp_opt := unwrap_if_singleton (np_tolist (z_o z));
     cp_key := np_as_py (z_k z) |}.

(** ** Replicated state (per-device copies) *)

(** A replicated pytree is modelled by the list of its per-device copies; [get_first]
    (distribute.py 51-57) takes the first, [replicate_all_local_devices] (35-41) makes n copies. *)
Definition get_first {A} (l : list A) : option A := hd_error l.
Definition replicate_all_local_devices {A} (n : nat) (x : A) : list A := repeat x n.

(** What a distributed parameter copy looks like after saving and reloading on [n] devices:
    io.py 127-129 (first copy saved) then distribute.py 170-171 (replicated). *)
Definition save_reload_replicated {A} (n : nat) (l : list A) : option (list A) :=
  option_map (replicate_all_local_devices n) (get_first l).

(** The whole distributed round trip: a run on [n] devices saves a checkpoint
    (checkpoint.py 172-186, io.py 118-131 with is_distributed=True, 154-176), the file is reloaded
    (io.py 179-198) and redistributed (distribute.py 157-174; data and key are stored with their
    device axis and only broadcast).  [None]: no device copy to save ([x[0]] fails). *)
Definition save_reload_distributed (n : nat) (e : pyval) (d : pyval) (params opt : list pyval) (k : pyval)
    : option (pyval * pyval * list pyval * list pyval * pyval) :=
  match get_first params, get_first opt with
  | Some p, Some o =>
      let c := reload_vmc_state (save_vmc_state (process_checkpoint_data_for_saving
                 {| cp_epoch := e; cp_data := d; cp_params := p; cp_opt := o; cp_key := k |})) in
      Some (cp_epoch c, cp_data c, replicate_all_local_devices n (cp_params c),
            replicate_all_local_devices n (cp_opt c), cp_key c)
  | _, _ => None
  end.
