(** * Property theorems C12 - C16: names, configuration files, checkpoint files, flags *)
From Coq Require Import List String Arith ZArith Bool Lia.
From Verif Require Import M_io M_config S_io P_io P_config P_flags.
Import ListNotations.
Local Open Scope string_scope.

(** C12.  On every finite file system the search for a unique name terminates (any fuel above the
    number of existing paths gives the same kind of answer); the result does not exist; it is the
    stripped base name, or - only if that exists - [rel_i] for the least [i >= 1] that is free. *)
Theorem C12_unique_names :
  forall (ex : list string) (exists_ : string -> bool) rel base suf fuel,
  (forall p, exists_ p = true <-> In p ex) -> List.length ex + 2 <= fuel ->
  exists r, add_suffix_for_uniqueness exists_ fuel rel base suf = Some r /\
    exists_ (path_join base (r ++ suf)) = false /\
    (r = rstrip_sep rel \/
     exists i, 1 <= i /\ r = rel ++ "_" ++ str_nat i /\
       exists_ (path_join base (rstrip_sep rel ++ suf)) = true /\
       forall j, 1 <= j -> j < i -> exists_ (path_join base ((rel ++ "_" ++ str_nat j) ++ suf)) = true).
Proof. exact unique_names. Qed.
Print Assumptions C12_unique_names.

(** Stripping only removes trailing separators, so for an ordinary name the first candidate is the
    name itself. *)
Theorem C12_no_separator : forall s, last_is_sep s = false -> rstrip_sep s = s.
Proof. exact rstrip_sep_id. Qed.
Print Assumptions C12_no_separator.

Example C12_example :
  add_suffix_for_uniqueness (fun p => existsb (String.eqb p) ["log/config.json"; "log/config_1.json"]) 4
    "config" "log" ".json" = Some "config_2".
Proof. reflexivity. Qed.

(** C12, finding: the separator is stripped from the first candidate only, so for a directory given
    with a trailing separator the "sibling" ends up INSIDE the existing directory. *)
Theorem C12_trailing_separator_refuted :
  exists exists_ fuel, add_suffix_for_uniqueness exists_ fuel "logs/" "" "" = Some "logs/_1".
Proof. exists (fun p => existsb (String.eqb p) ["logs"]), 3. reflexivity. Qed.
Print Assumptions C12_trailing_separator_refuted.

(** C13.  Saving and loading a configuration in which dictionaries occur only inside dictionaries
    gives the configuration with every list turned into a tuple, at every depth ... *)
Theorem C13_load_tuplifies :
  forall v, no_dict_in_seq v = true -> save_then_load_config v = tuplify v.
Proof. exact load_tuplify. Qed.
Print Assumptions C13_load_tuplifies.

(** ... hence the configuration itself if its sequences are tuples ... *)
Theorem C13_roundtrip :
  forall v, no_dict_in_seq v = true -> list_free v = true -> save_then_load_config v = v.
Proof. intros v H1 H2. rewrite load_tuplify by exact H1. apply tuplify_id, H2. Qed.
Print Assumptions C13_roundtrip.

(** ... the exact set of configurations that survive unchanged ... *)
Theorem C13_unchanged_iff : forall v, save_then_load_config v = v <-> stable v = true.
Proof. exact stable_iff. Qed.
Print Assumptions C13_unchanged_iff.

(** ... and for EVERY configuration a second save and load changes nothing more (a run reloaded
    from a reloaded run sees the same configuration). *)
Theorem C13_reload_of_reload :
  forall v, save_then_load_config (save_then_load_config v) = save_then_load_config v.
Proof. exact load_idem. Qed.
Print Assumptions C13_reload_of_reload.

Example C13_example :
  let v := CDict [("ion_pos", CTuple [CTuple [CNum 0; CNum 1]; CTuple [CNum 2; CNum 3]]);
                  ("vmc", CDict [("nelec", CTuple [CNum 2; CNum 2]); ("name", CStr "kfac")])] in
  no_dict_in_seq v = true /\ list_free v = true /\ save_then_load_config v = v.
Proof. repeat split. Qed.

(** C13, refuted in general: a tuple in a dictionary inside a tuple comes back as a list. *)
Theorem C13_dict_in_seq_refuted :
  exists v, list_free v = true /\ save_then_load_config v <> v /\ save_then_load_config v <> tuplify v.
Proof.
  exists (CTuple [CDict [("a", CTuple [CNum 1])]]). repeat split; discriminate.
Qed.
Print Assumptions C13_dict_in_seq_refuted.

(** C14.  Epoch, data (array or object), parameters (a dictionary or other object), optimizer state
    of ANY shape, and key survive saving and reloading. *)
Theorem C14_roundtrip :
  forall e d p o k,
  (is_object d = true \/ exists a, d = PArr a) -> is_object p = true ->
  reload_vmc_state (save_vmc_state (process_checkpoint_data_for_saving
    {| cp_epoch := PInt e; cp_data := d; cp_params := p; cp_opt := o; cp_key := PArr k |}))
  = {| cp_epoch := PInt e; cp_data := d; cp_params := p; cp_opt := o; cp_key := PArr k |}.
Proof. exact roundtrip. Qed.
Print Assumptions C14_roundtrip.

(** C14, distributed: on [n] devices the reloaded state equals the saved one exactly when the
    device copies of the parameters agree and so do those of the optimizer state. *)
Theorem C14_distributed_roundtrip :
  forall n e d ps os k,
  0 < n -> List.length ps = n -> List.length os = n ->
  (is_object d = true \/ exists a, d = PArr a) -> (forall p, In p ps -> is_object p = true) ->
  (save_reload_distributed n (PInt e) d ps os (PArr k) = Some (PInt e, d, ps, os, PArr k) <->
   (forall p q, In p ps -> In q ps -> p = q) /\ (forall p q, In p os -> In q os -> p = q)).
Proof. exact distributed_roundtrip. Qed.
Print Assumptions C14_distributed_roundtrip.

(** An optimizer state that is itself a one-entry dictionary with the wrapper's key survives. *)
Example C14_example :
  let c := {| cp_epoch := PInt 7; cp_data := PDict [("walker_data", PArr [1; 2])%Z];
              cp_params := PDict [("kernel", PArr [3])%Z];
              cp_opt := PDict [("single_element", PTuple [PArr [4]; PObj 0])%Z]; cp_key := PArr [0; 1]%Z |} in
  reload_vmc_state (save_vmc_state (process_checkpoint_data_for_saving c)) = c.
Proof. reflexivity. Qed.

(** C14, files written by [save_vmc_state] without the wrapper (checkpoints of older runs): an optimizer
    state that is an object comes back unchanged, unless it is itself a dictionary with the wrapper's key
    as its only key. *)
Theorem C14_unwrapped_files :
  forall e d p o k,
  (is_object d = true \/ exists a, d = PArr a) -> is_object p = true -> is_object o = true ->
  (forall v, o <> PDict [("single_element", v)]) ->
  reload_vmc_state (save_vmc_state {| cp_epoch := PInt e; cp_data := d; cp_params := p; cp_opt := o; cp_key := PArr k |})
  = {| cp_epoch := PInt e; cp_data := d; cp_params := p; cp_opt := o; cp_key := PArr k |}.
Proof.
  intros e d p o k Hd Hp Ho HW. pose proof (roundtrip e d p (PObj 0) k Hd Hp) as RT.
  unfold save_vmc_state, reload_vmc_state, process_checkpoint_data_for_saving in *.
  cbn [cp_epoch cp_data cp_params cp_opt cp_key z_e z_d z_p z_o z_k] in *.
  pose proof (f_equal cp_epoch RT) as E1. pose proof (f_equal cp_data RT) as E2. pose proof (f_equal cp_params RT) as E3.
  pose proof (f_equal cp_key RT) as E5. cbn [cp_epoch cp_data cp_params cp_key] in *. rewrite E1, E2, E3, E5. f_equal.
  destruct o; try discriminate; try reflexivity.
  cbn. match goal with |- context [match ?l with _ => _ end] => destruct l as [|[a v] [|]]; try reflexivity end.
  destruct (String.eqb_spec a "single_element"); [subst; exfalso; exact (HW v eq_refl)|reflexivity].
Qed.
Print Assumptions C14_unwrapped_files.

Example C14_unwrapped_example : is_object (PDict [("momentum", PArr [1]%Z)]) = true /\
  forall v, PDict [("momentum", PArr [1]%Z)] <> PDict [("single_element", v)].
Proof. split; [reflexivity|discriminate]. Qed.

(** C14, limits: a tuple as parameters or data does not survive (it is not wrapped). *)
Theorem C14_tuple_params_refuted :
  exists p, reload_vmc_state (save_vmc_state (process_checkpoint_data_for_saving
    {| cp_epoch := PInt 0; cp_data := PArr []; cp_params := p; cp_opt := PObj 0; cp_key := PArr [] |}))
  <> {| cp_epoch := PInt 0; cp_data := PArr []; cp_params := p; cp_opt := PObj 0; cp_key := PArr [] |}.
Proof. exists (PTuple [PArr []]). discriminate. Qed.
Print Assumptions C14_tuple_params_refuted.

(** C15.  For all flags and every environment: parsing is refused exactly for conflicting requests ... *)
Theorem C15_conflicts :
  forall (Rest : Type) load load_preset (default : config Rest) override choose_model f,
  parse_flags load load_preset default override choose_model f = ConfigError <->
  (wants_name f /\ wants_path f) \/ (wants_reload f /\ (wants_name f \/ wants_path f)).
Proof. exact error_iff. Qed.
Print Assumptions C15_conflicts.

(** ... and a successful parse comes from the one requested source; debug_nans switches off
    distribution and the base log directory is the log directory. *)
Theorem C15_one_source :
  forall (Rest : Type) load load_preset (default : config Rest) override choose_model f s c,
  parse_flags load load_preset default override choose_model f = Parsed s c ->
  (debug_nans c = true -> distribute c = false) /\ base_logdir c = c_logdir c /\
  match s with
  | FromReload => wants_reload f /\ ~ wants_name f /\ ~ wants_path f /\
      exists c0 c1, load (reload_logdir f) (config_relative_file_path f) = Some c0 /\
        override (set_logdir c0 (base_logdir c0)) = Some c1 /\
        c_logdir c = c_logdir c1 /\ debug_nans c = debug_nans c1 /\ rest c = rest c1 /\
        (debug_nans c1 = false -> distribute c = distribute c1)
  | FromPreset p => ~ wants_reload f /\
      ((wants_name f /\ ~ wants_path f /\ p = path_join "preset_configs" (presets_name f ++ ".json")) \/
       (wants_path f /\ ~ wants_name f /\ p = presets_path f))
  | FromDefault => ~ wants_reload f /\ ~ wants_name f /\ ~ wants_path f
  end.
Proof. exact parsed_inv. Qed.
Print Assumptions C15_one_source.

(** ... and reloading a run's saved configuration without overrides gives back the directory and
    all other settings that run was started with (log directories of reloaded runs do not nest). *)
Theorem C15_reload_chain :
  forall (Rest : Type) load load_preset (default : config Rest) override choose_model
    exists_ fuel f1 f2 sub stamp s1 c1 c1' c2,
  parse_flags load load_preset default override choose_model f1 = Parsed s1 c1 ->
  choose_logdir exists_ fuel f1 sub stamp c1 = Some c1' ->
  load (reload_logdir f2) (config_relative_file_path f2) = Some c1' ->
  (forall c, override c = Some c) ->
  parse_flags load load_preset default override choose_model f2 = Parsed FromReload c2 ->
  c_logdir c2 = c_logdir c1 /\ base_logdir c2 = base_logdir c1 /\ rest c2 = rest c1.
Proof. exact reload_chain. Qed.
Print Assumptions C15_reload_chain.

Definition plain_flags : pre_flags :=
  {| reload_logdir := "NONE"; use_config_file := true; config_relative_file_path := "config.json";
     use_checkpoint_file := true; same_logdir := false; presets_name := "NONE"; presets_path := "NONE" |}.
Definition reload_flags : pre_flags :=
  {| reload_logdir := "logs/run"; use_config_file := true; config_relative_file_path := "config.json";
     use_checkpoint_file := true; same_logdir := false; presets_name := "NONE"; presets_path := "NONE" |}.
Definition default_cfg : config unit :=
  {| debug_nans := true; distribute := true; c_logdir := "logs"; base_logdir := ""; rest := tt |}.

(** A default run in logs/run (debugging NaNs), then its reload. *)
Example C15_example :
  let load d (_ : string) := if String.eqb d "logs/run"
     then Some {| debug_nans := true; distribute := false; c_logdir := "logs/run"; base_logdir := "logs"; rest := tt |}
     else None in
  let parse := parse_flags load (fun _ => None) default_cfg Some Some in
  exists c1, parse plain_flags = Parsed FromDefault c1 /\ distribute c1 = false /\
    choose_logdir (fun _ => false) 3 plain_flags "run" None c1 = load "logs/run" "config.json" /\
    exists c2, parse reload_flags = Parsed FromReload c2 /\ c_logdir c2 = "logs".
Proof. eexists. repeat split. eexists. repeat split. Qed.

(** C16.  Copying a finitely nested dictionary succeeds ... *)
Theorem C16_copy_succeeds :
  forall (atom : Type) fuel (h : heap atom) a,
  closed atom h -> a < List.length h -> depth_lt atom fuel h (Ref a) ->
  exists h' a', copy_all_dicts fuel h a = Some (h', a').
Proof. exact copy_succeeds. Qed.
Print Assumptions C16_copy_succeeds.

(** ... and gives the same contents, in objects that are all new and pairwise distinct, leaving
    the old objects alone. *)
Theorem C16_copy_is_unshared :
  forall (atom : Type) fuel (h : heap atom) a h' a',
  closed atom h -> a < List.length h -> copy_all_dicts fuel h a = Some (h', a') ->
  (forall p, same_shape atom (lookup h (Ref a) p) (lookup h' (Ref a') p)) /\
  (forall p x, lookup h' (Ref a') p = Some (Ref x) -> List.length h <= x < List.length h') /\
  (forall p q x, lookup h' (Ref a') p = Some (Ref x) -> lookup h' (Ref a') q = Some (Ref x) -> p = q) /\
  (forall i, i < List.length h -> nth_error h' i = nth_error h i).
Proof.
  intros atom fuel h a h' a' Hc Ha H.
  destruct (copy_good atom fuel h a h' a' Hc Ha H) as (_ & _ & C & T1 & T2 & T3). auto.
Qed.
Print Assumptions C16_copy_is_unshared.

(** ... so overriding one entry of the copy changes nothing reached by any other path, and nothing
    in the original. *)
Theorem C16_override_is_local :
  forall (atom : Type) fuel (h : heap atom) a h' a' p x k v,
  closed atom h -> a < List.length h -> copy_all_dicts fuel h a = Some (h', a') ->
  lookup h' (Ref a') p = Some (Ref x) ->
  lookup (assign h' x k v) (Ref a') (p ++ [k])%list = Some v /\
  (forall q, (forall s, q <> (p ++ k :: s)%list) ->
     lookup (assign h' x k v) (Ref a') q = lookup h' (Ref a') q) /\
  (forall q, lookup (assign h' x k v) (Ref a) q = lookup h (Ref a) q).
Proof.
  intros atom fuel h a h' a' p x k v Hc Ha H Hp.
  destruct (copy_good atom fuel h a h' a' Hc Ha H) as (_ & _ & C & T1 & T2 & T3).
  split; [|split].
  - apply assign_visible; auto. specialize (T1 _ _ Hp). lia.
  - intros q Hq. apply (assign_isolated atom h' a' p); auto.
  - intros q. apply lookup_ext; auto. intros i Hi. rewrite assign_other; [apply C, Hi|].
    specialize (T1 _ _ Hp). lia.
Qed.
Print Assumptions C16_override_is_local.

(** The documented example: one sub-dictionary used twice.  Without the copy an override of
    sub1.val is seen in sub2.val; with it, it is not. *)
Definition shared_heap : heap nat := [[("val", Atom 2)]; [("sub1", Ref 0); ("sub2", Ref 0)]].
Example C16_example :
  closed nat shared_heap /\ depth_lt nat 2 shared_heap (Ref 1) /\
  lookup (assign shared_heap 0 "val" (Atom 3)) (Ref 1) ["sub2"; "val"] = Some (Atom 3) /\
  exists h' a', copy_all_dicts 2 shared_heap 1 = Some (h', a') /\
    exists x, lookup h' (Ref a') ["sub1"] = Some (Ref x) /\
      lookup (assign h' x "val" (Atom 3)) (Ref a') ["sub1"; "val"] = Some (Atom 3) /\
      lookup (assign h' x "val" (Atom 3)) (Ref a') ["sub2"; "val"] = Some (Atom 2).
Proof.
  split; [|split].
  - intros [|[|[|a]]] o k b H Hin; simpl in *; try discriminate; injection H as <-; simpl in Hin;
      repeat destruct Hin as [Hin|Hin]; try discriminate; try contradiction; injection Hin as _ <-; lia.
  - simpl. intros o k w H Hin. injection H as <-. simpl in Hin.
    repeat destruct Hin as [Hin|Hin]; try contradiction; injection Hin as _ <-; simpl; intros o2 k2 w2 H2 Hin2;
      injection H2 as <-; simpl in Hin2; destruct Hin2 as [Hin2|[]]; injection Hin2 as _ <-; exact I.
  - split; [reflexivity|]. do 2 eexists. split; [reflexivity|]. eexists. repeat split.
Qed.
