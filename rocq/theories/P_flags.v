(** * Proofs about flag parsing *)
From Coq Require Import List String Arith Bool Lia.
From Verif Require Import M_io M_config.
Import ListNotations.
Local Open Scope string_scope.

Section F.
  Variable Rest : Type.
  Notation config := (config Rest).
  Variable load : string -> string -> option config.
  Variable load_preset : string -> option (config -> option config).
  Variable default : config.
  Variable override choose_model : config -> option config.
  Notation parse := (parse_flags load load_preset default override choose_model).

  Definition wants_reload (f : pre_flags) : Prop := reload_logdir f <> "NONE" /\ use_config_file f = true.
  Definition wants_name (f : pre_flags) : Prop := presets_name f <> "NONE".
  Definition wants_path (f : pre_flags) : Prop := presets_path f <> "NONE".

  Ltac flags_cases f :=
    unfold parse_flags, wants_reload, wants_name, wants_path, NO_NAME, NO_PATH, NO_RELOAD_LOG_DIR;
    destruct (String.eqb_spec (reload_logdir f) "NONE"), (use_config_file f),
      (String.eqb_spec (presets_name f) "NONE"), (String.eqb_spec (presets_path f) "NONE");
    cbn [negb andb orb].

  Lemma error_iff f :
    parse f = ConfigError <->
    (wants_name f /\ wants_path f) \/ (wants_reload f /\ (wants_name f \/ wants_path f)).
  Proof.
    flags_cases f;
    repeat match goal with |- context [match ?x with Some _ => _ | None => _ end] => destruct x end;
    split; intros H; try discriminate; try reflexivity; intuition (try congruence; try discriminate).
  Qed.

  Lemma parsed_inv f s c :
    parse f = Parsed s c ->
    (debug_nans c = true -> distribute c = false) /\ base_logdir c = c_logdir c /\
    match s with
    | FromReload => wants_reload f /\ ~ wants_name f /\ ~ wants_path f /\
        exists c0 c1, load (reload_logdir f) (config_relative_file_path f) = Some c0 /\
          override (set_logdir c0 (base_logdir c0)) = Some c1 /\
          c_logdir c = c_logdir c1 /\ debug_nans c = debug_nans c1 /\ rest c = rest c1 /\
          (debug_nans c1 = false -> distribute c = distribute c1)
    | FromPreset p => ~ wants_reload f /\
        ((wants_name f /\ ~ wants_path f /\ p = path_join "preset_configs" (presets_name f ++ ".json")) \/
         (wants_path f /\ ~ wants_name f /\ p = presets_path f))
    | FromDefault => ~ wants_reload f /\ ~ wants_name f /\ ~ wants_path f
    end.
  Proof.
    assert (F1 : forall c0 : config, (debug_nans (finish_config c0) = true -> distribute (finish_config c0) = false) /\
              base_logdir (finish_config c0) = c_logdir (finish_config c0)).
    { intros c0. unfold finish_config. destruct (debug_nans c0) eqn:E; simpl; rewrite ?E; split; auto; discriminate. }
    flags_cases f; unfold get_config_from_reload;
    repeat match goal with |- context [match ?x with Some _ => _ | None => _ end] => destruct x eqn:? end;
    intros H; try discriminate; injection H as <- <-;
    (split; [apply F1|]); (split; [apply F1|]); try (intuition (try congruence; try discriminate); fail).
    split; [auto|]. split; [auto|]. split; [auto|].
    destruct (load _ _) as [c1|]; [|discriminate].
    exists c1, c0. split; [reflexivity|]. split; [assumption|]. unfold finish_config.
    destruct (debug_nans c0) eqn:Ed; simpl; rewrite ?Ed; repeat split; auto; discriminate.
  Qed.

  (** A chain of reloads keeps the base directory. *)
  Lemma reload_chain exists_ fuel f1 f2 sub stamp s1 c1 c1' c2 :
    parse f1 = Parsed s1 c1 ->
    choose_logdir exists_ fuel f1 sub stamp c1 = Some c1' ->
    load (reload_logdir f2) (config_relative_file_path f2) = Some c1' ->
    (forall c, override c = Some c) ->
    parse f2 = Parsed FromReload c2 ->
    c_logdir c2 = c_logdir c1 /\ base_logdir c2 = base_logdir c1 /\ rest c2 = rest c1.
  Proof.
    intros H1 Hc Hl Ho H2.
    destruct (parsed_inv _ _ _ H1) as (_ & B1 & _).
    destruct (parsed_inv _ _ _ H2) as (_ & B2 & _ & _ & _ & c0 & c3 & E1 & E2 & E3 & _ & E5 & _).
    rewrite Hl in E1. injection E1 as <-. rewrite Ho in E2. injection E2 as <-.
    assert (G : base_logdir c1' = base_logdir c1 /\ rest c1' = rest c1).
    { unfold choose_logdir in Hc. destruct (same_logdir f1); [injection Hc as <-; split; reflexivity|].
      destruct (add_suffix_for_uniqueness _ _ _ _ _); [|discriminate]. injection Hc as <-. split; reflexivity. }
    destruct G as [G1 G2]. simpl in E3, E5. repeat split; congruence.
  Qed.
End F.
