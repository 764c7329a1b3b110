(** * Proofs about io.py: unique names, configuration round trip, checkpoint round trip *)
From Coq Require Import List String Ascii Arith ZArith Bool Lia FinFun.
From Verif Require Import XReal M_io M_vmc P_vmc S_io.
Import ListNotations.
Local Open Scope string_scope.

(** ** Unique names *)
Section Unique.
  Variables (ex : list string) (base rel suf : string).
  Definition on_disk (p : string) : bool := if in_dec string_dec p ex then true else false.
  Lemma on_disk_true p : on_disk p = true <-> In p ex.
  Proof. unfold on_disk. destruct (in_dec _ _ _); split; auto; discriminate. Qed.
  Lemma on_disk_false p : on_disk p = false <-> ~ In p ex.
  Proof. unfold on_disk. destruct (in_dec _ _ _); split; auto; try discriminate; contradiction. Qed.

  Definition numbered (i : nat) : string := rel ++ "_" ++ str_nat i.
  Definition full (s : string) : string := path_join base (s ++ suf).

  Lemma app_assoc_s a b c : (a ++ b) ++ c = a ++ b ++ c.
  Proof. induction a; simpl; congruence. Qed.

  Lemma numbered_first i : first_is_sep (numbered i ++ suf) = first_is_sep (numbered 0 ++ suf).
  Proof. unfold numbered. destruct rel; reflexivity. Qed.

  Lemma full_numbered_inj i j : full (numbered i) = full (numbered j) -> i = j.
  Proof.
    unfold full, path_join. rewrite (numbered_first i), (numbered_first j).
    intros H.
    assert (E : numbered i ++ suf = numbered j ++ suf).
    { destruct (first_is_sep _); [exact H|].
      destruct (String.eqb base "" || last_is_sep base); [apply string_app_inj_l in H; exact H|].
      apply string_app_inj_l in H. apply string_app_inj_l in H. exact H. }
    apply string_app_inj_r in E. unfold numbered in E. apply string_app_inj_l, string_app_inj_l, str_nat_inj in E. exact E.
  Qed.

  Lemma suffix_loop_spec fuel : forall i,
    (exists j, i <= j /\ j < i + fuel /\
       suffix_loop on_disk base rel suf fuel i (numbered i) = Some (numbered j) /\
       ~ In (full (numbered j)) ex /\ forall l, i <= l -> l < j -> In (full (numbered l)) ex) \/
    (suffix_loop on_disk base rel suf fuel i (numbered i) = None /\
     forall l, i <= l -> l < i + fuel -> In (full (numbered l)) ex).
  Proof.
    induction fuel as [|f IH]; intros i; simpl.
    - right. split; [reflexivity|]. intros; lia.
    - fold (full (numbered i)). destruct (on_disk (full (numbered i))) eqn:E.
      + apply on_disk_true in E. destruct (IH (S i)) as [(j & H1 & H2 & H3 & H4 & H5)|[H1 H2]].
        * left. exists j. repeat split; try lia; auto. intros l Hl1 Hl2.
          destruct (Nat.eq_dec l i) as [->|]; [exact E|]. apply H5; lia.
        * right. split; [exact H1|]. intros l Hl1 Hl2.
          destruct (Nat.eq_dec l i) as [->|]; [exact E|]. apply H2; lia.
      + apply on_disk_false in E. left. exists i. repeat split; try lia; auto.
  Qed.

  (** With more fuel than there are files, the loop ends. *)
  Lemma unique_spec fuel :
    List.length ex + 2 <= fuel ->
    exists r, add_suffix_for_uniqueness on_disk fuel rel base suf = Some r /\
      ~ In (full r) ex /\
      ((r = rstrip_sep rel) \/
       (In (full (rstrip_sep rel)) ex /\ exists i, 1 <= i /\ r = numbered i /\
          forall j, 1 <= j -> j < i -> In (full (numbered j)) ex)).
  Proof.
    intros Hf. unfold add_suffix_for_uniqueness. destruct fuel as [|f]; [lia|]. cbn [suffix_loop].
    fold (full (rstrip_sep rel)). destruct (on_disk (full (rstrip_sep rel))) eqn:E.
    - apply on_disk_true in E.
      fold (numbered 1). destruct (suffix_loop_spec f 1) as [(j & H1 & H2 & H3 & H4 & H5)|[H1 H2]].
      + exists (numbered j). split; [exact H3|]. split; [exact H4|]. right. split; [exact E|].
        exists j. repeat split; auto.
      + exfalso.
        assert (Hincl : incl (map (fun l => full (numbered l)) (seq 1 f)) ex).
        { intros p Hp. apply in_map_iff in Hp. destruct Hp as (l & <- & Hl). apply in_seq in Hl. apply H2; lia. }
        assert (ND : NoDup (map (fun l => full (numbered l)) (seq 1 f))).
        { apply Injective_map_NoDup; [|apply seq_NoDup]. intros a b Hab. apply full_numbered_inj, Hab. }
        apply NoDup_incl_length in Hincl; [|exact ND]. rewrite map_length, seq_length in Hincl. lia.
    - apply on_disk_false in E. exists (rstrip_sep rel). auto.
  Qed.
End Unique.

(** Nothing is stripped from a name without trailing separator. *)
Lemma rstrip_sep_id s : last_is_sep s = false -> rstrip_sep s = s.
Proof.
  induction s as [|c s IH]; intros H; [reflexivity|].
  simpl. destruct s as [|c2 s].
  - simpl in *. rewrite H. reflexivity.
  - rewrite IH by exact H. reflexivity.
Qed.

(** ** Configurations *)
Section CvalInd.
  Variable Q : cval -> Prop.
  Hypothesis HNone : Q CNone. Hypothesis HB : forall b, Q (CBool b). Hypothesis HN : forall z, Q (CNum z).
  Hypothesis HS : forall s, Q (CStr s).
  Hypothesis HL : forall l, Forall Q l -> Q (CList l).
  Hypothesis HT : forall l, Forall Q l -> Q (CTuple l).
  Hypothesis HD : forall l, Forall (fun kv => Q (snd kv)) l -> Q (CDict l).
  Fixpoint cval_ind' (v : cval) : Q v :=
    match v with
    | CNone => HNone | CBool b => HB b | CNum z => HN z | CStr s => HS s
    | CList l => HL l ((fix go l := match l return Forall Q l with [] => Forall_nil _ | x :: r => Forall_cons _ (cval_ind' x) (go r) end) l)
    | CTuple l => HT l ((fix go l := match l return Forall Q l with [] => Forall_nil _ | x :: r => Forall_cons _ (cval_ind' x) (go r) end) l)
    | CDict l => HD l ((fix go l := match l return Forall (fun kv => Q (snd kv)) l with [] => Forall_nil _ | x :: r => Forall_cons _ (cval_ind' (snd x)) (go r) end) l)
    end.
End CvalInd.

Lemma map_ext_Forall {A B} (f g : A -> B) l : Forall (fun x => f x = g x) l -> map f l = map g l.
Proof. induction 1; simpl; congruence. Qed.
Lemma map_id_Forall {A} (f : A -> A) l : Forall (fun x => f x = x) l <-> map f l = l.
Proof.
  induction l as [|x l IH]; simpl; [split; auto|]. split.
  - intros H. inversion H; subst. f_equal; auto. apply IH; assumption.
  - intros H. injection H as H1 H2. constructor; auto. apply IH, H2.
Qed.
Lemma map_snd_id (f : cval -> cval) (l : list (string * cval)) :
  map (fun kv => (fst kv, f (snd kv))) l = l <-> Forall (fun kv => f (snd kv) = snd kv) l.
Proof.
  rewrite <- map_id_Forall. split; intros H; eapply Forall_impl; try exact H; intros [k v]; simpl; congruence.
Qed.

(** Inside a sequence without dictionaries: converting after the JSON round trip = tuplify. *)
Lemma seq_tuplify v : dict_free v = true -> convert_to_tuple_if_list (json_roundtrip v) = tuplify v.
Proof.
  induction v as [| | | |l IH|l IH|l IH] using cval_ind'; simpl; intros H; try reflexivity.
  - f_equal. rewrite map_map. apply map_ext_Forall. rewrite forallb_forall in H.
    rewrite Forall_forall in *. intros x Hx. apply IH; auto.
  - f_equal. rewrite map_map. apply map_ext_Forall. rewrite forallb_forall in H.
    rewrite Forall_forall in *. intros x Hx. apply IH; auto.
  - discriminate.
Qed.
Lemma load_tuplify v : no_dict_in_seq v = true -> save_then_load_config v = tuplify v.
Proof.
  unfold save_then_load_config.
  induction v as [| | | |l IH|l IH|l IH] using cval_ind'; intros H; try reflexivity.
  - apply (seq_tuplify (CList l) H).
  - apply (seq_tuplify (CTuple l) H).
  - simpl in *. f_equal. rewrite map_map. apply map_ext_Forall. rewrite forallb_forall in H.
    rewrite Forall_forall in *. intros x Hx. simpl. f_equal. apply IH; auto.
Qed.
Lemma tuplify_id v : list_free v = true -> tuplify v = v.
Proof.
  induction v as [| | | |l IH|l IH|l IH] using cval_ind'; simpl; intros H; try reflexivity; try discriminate.
  - f_equal. apply map_id_Forall. rewrite forallb_forall in H. rewrite Forall_forall in *. auto.
  - f_equal. apply map_snd_id. rewrite forallb_forall in H. rewrite Forall_forall in *. auto.
Qed.

Lemma json_id v : json_roundtrip v = v <-> tuple_free v = true.
Proof.
  induction v as [| | | |l IH|l IH|l IH] using cval_ind'; simpl; try (split; auto; fail).
  - rewrite forallb_forall, Forall_forall in *. split.
    + intros H x Hx. injection H as H. apply IH; [exact Hx|].
      rewrite <- map_id_Forall, Forall_forall in H. auto.
    + intros H. f_equal. apply map_id_Forall. rewrite Forall_forall. intros x Hx. apply IH; auto.
  - split; discriminate.
  - rewrite forallb_forall, Forall_forall in *. split.
    + intros H x Hx. injection H as H. apply IH; [exact Hx|].
      rewrite map_snd_id, Forall_forall in H. auto.
    + intros H. f_equal. apply map_snd_id. rewrite Forall_forall. intros x Hx. apply IH; auto.
Qed.
Lemma json_json v : json_roundtrip (json_roundtrip v) = json_roundtrip v.
Proof.
  induction v as [| | | |l IH|l IH|l IH] using cval_ind'; simpl; try reflexivity.
  - f_equal. rewrite map_map. apply map_ext_Forall, IH.
  - f_equal. rewrite map_map. apply map_ext_Forall, IH.
  - f_equal. rewrite map_map. apply map_ext_Forall. eapply Forall_impl; [|exact IH]. intros [k v]; simpl; congruence.
Qed.
Lemma item_id v : convert_to_tuple_if_list (json_roundtrip v) = v <-> seq_item_stable v = true.
Proof.
  induction v as [| | | |l IH|l IH|l IH] using cval_ind'; simpl; try (split; auto; fail).
  - split; discriminate.
  - rewrite map_map. rewrite forallb_forall, Forall_forall in *. split.
    + intros H x Hx. injection H as H. apply IH; [exact Hx|].
      rewrite <- map_id_Forall, Forall_forall in H. apply H, Hx.
    + intros H. f_equal. apply map_id_Forall. rewrite Forall_forall. intros x Hx. apply IH; auto.
  - apply (json_id (CDict l)).
Qed.
Lemma stable_iff v : save_then_load_config v = v <-> stable v = true.
Proof.
  unfold save_then_load_config.
  induction v as [| | | |l IH|l IH|l IH] using cval_ind'; try (split; reflexivity).
  - simpl. split; discriminate.
  - apply (item_id (CTuple l)).
  - simpl. rewrite map_map. rewrite forallb_forall, Forall_forall in *. split.
    + intros H x Hx. injection H as H. apply IH; [exact Hx|].
      cbn [fst snd] in H. rewrite (map_snd_id (fun v => convert_dict_lists_to_tuples (json_roundtrip v))), Forall_forall in H.
      apply H, Hx.
    + intros H. f_equal. cbn [fst snd]. apply (map_snd_id (fun v => convert_dict_lists_to_tuples (json_roundtrip v))).
      rewrite Forall_forall. intros x Hx. apply IH; auto.
Qed.

Lemma item_idem v : let f v := convert_to_tuple_if_list (json_roundtrip v) in f (f v) = f v.
Proof.
  cbv zeta. induction v as [| | | |l IH|l IH|l IH] using cval_ind'; simpl; try reflexivity.
  - f_equal. rewrite !map_map. apply map_ext_Forall, IH.
  - f_equal. rewrite !map_map. apply map_ext_Forall, IH.
  - apply (json_json (CDict l)).
Qed.
Lemma load_idem v : save_then_load_config (save_then_load_config v) = save_then_load_config v.
Proof.
  unfold save_then_load_config.
  induction v as [| | | |l IH|l IH|l IH] using cval_ind'; try reflexivity.
  - apply (item_idem (CList l)).
  - apply (item_idem (CTuple l)).
  - simpl. f_equal. rewrite !map_map. apply map_ext_Forall. eapply Forall_impl; [|exact IH].
    intros [k v] H; simpl in *; congruence.
Qed.

(** ** Checkpoints *)
Lemma roundtrip e d p o k :
  (is_object d = true \/ exists a, d = PArr a) -> is_object p = true ->
  reload_vmc_state (save_vmc_state (process_checkpoint_data_for_saving
    {| cp_epoch := PInt e; cp_data := d; cp_params := p; cp_opt := o; cp_key := PArr k |}))
  = {| cp_epoch := PInt e; cp_data := d; cp_params := p; cp_opt := o; cp_key := PArr k |}.
Proof.
  intros Hd Hp. unfold reload_vmc_state, save_vmc_state, process_checkpoint_data_for_saving. simpl.
  f_equal.
  - destruct Hd as [Hd|[a ->]]; [|reflexivity]. destruct d; try discriminate; reflexivity.
  - destruct p; try discriminate; reflexivity.
Qed.

Lemma replicated_iff {A} n (l : list A) :
  List.length l = n -> 0 < n ->
  (save_reload_replicated n l = Some l <-> forall i j x y, nth_error l i = Some x -> nth_error l j = Some y -> x = y).
Proof.
  intros Hl Hn. unfold save_reload_replicated, get_first, replicate_all_local_devices.
  destruct l as [|a l]; [simpl in Hl; lia|]. simpl hd_error. simpl option_map. split.
  - intros H. injection H as H.
    assert (G : forall i x, nth_error (a :: l) i = Some x -> x = a).
    { rewrite <- H. intros i x Hx. apply nth_error_In, repeat_spec in Hx. exact Hx. }
    intros i j x y Hx Hy. rewrite (G i x Hx), (G j y Hy). reflexivity.
  - intros H. f_equal. rewrite <- Hl.
    assert (G : forall x, In x (a :: l) -> x = a).
    { intros x Hx. apply In_nth_error in Hx. destruct Hx as [i Hi]. apply (H i 0 x a Hi eq_refl). }
    clear -G. induction (a :: l) as [|b m IH]; [reflexivity|]. simpl.
    rewrite (G b (or_introl eq_refl)). f_equal. apply IH. intros; apply G; right; assumption.
Qed.

Lemma distributed_roundtrip n e d ps os k :
  0 < n -> List.length ps = n -> List.length os = n ->
  (is_object d = true \/ exists a, d = PArr a) -> (forall p, In p ps -> is_object p = true) ->
  (save_reload_distributed n (PInt e) d ps os (PArr k) = Some (PInt e, d, ps, os, PArr k) <->
   (forall p q, In p ps -> In q ps -> p = q) /\ (forall p q, In p os -> In q os -> p = q)).
Proof.
  intros Hn Hp Ho Hd Hobj.
  assert (G : forall (l : list pyval) a m, l = a :: m -> List.length l = n ->
            (replicate_all_local_devices n a = l <-> forall p q, In p l -> In q l -> p = q)).
  { intros l a m E Hl. pose proof (@replicated_iff _ n l Hl Hn) as R. unfold save_reload_replicated in R.
    replace (get_first l) with (Some a) in R by (subst l; reflexivity). cbn [option_map] in R.
    transitivity (Some (replicate_all_local_devices n a) = Some l); [split; congruence|]. rewrite R. split.
    - intros H p q Hx Hy. apply In_nth_error in Hx, Hy. destruct Hx as [i Hi], Hy as [j Hj]. eauto.
    - intros H i j x y Hi Hj. apply nth_error_In in Hi, Hj. auto. }
  destruct ps as [|p ps']; [simpl in Hp; lia|]. destruct os as [|o os']; [simpl in Ho; lia|].
  unfold save_reload_distributed. cbn [get_first hd_error].
  rewrite roundtrip; [|exact Hd|apply Hobj; left; reflexivity]. cbn [cp_epoch cp_data cp_params cp_opt cp_key].
  rewrite <- (G (p :: ps') p ps' eq_refl Hp), <- (G (o :: os') o os' eq_refl Ho).
  split; [intros H; injection H as H1 H2; auto | intros [-> ->]; reflexivity].
Qed.

Lemma suffix_loop_ext e1 e2 base rel suf fuel : (forall p, e1 p = e2 p) -> forall i cur,
  suffix_loop e1 base rel suf fuel i cur = suffix_loop e2 base rel suf fuel i cur.
Proof.
  intros H. induction fuel as [|f IH]; intros i cur; simpl; [reflexivity|].
  rewrite H. destruct (e2 _); [apply IH|reflexivity].
Qed.
Lemma unique_names ex (exists_ : string -> bool) rel base suf fuel :
  (forall p, exists_ p = true <-> In p ex) -> List.length ex + 2 <= fuel ->
  exists r, add_suffix_for_uniqueness exists_ fuel rel base suf = Some r /\
    exists_ (path_join base (r ++ suf)) = false /\
    (r = rstrip_sep rel \/
     exists i, 1 <= i /\ r = rel ++ "_" ++ str_nat i /\
       exists_ (path_join base (rstrip_sep rel ++ suf)) = true /\
       forall j, 1 <= j -> j < i -> exists_ (path_join base ((rel ++ "_" ++ str_nat j) ++ suf)) = true).
Proof.
  intros He Hf.
  assert (Heq : forall p, exists_ p = on_disk ex p).
  { intros p. destruct (exists_ p) eqn:E.
    - symmetry. apply on_disk_true, He, E.
    - symmetry. apply on_disk_false. rewrite <- He. congruence. }
  destruct (unique_spec ex base rel suf fuel Hf) as (r & H1 & H2 & H3).
  exists r. split; [|split].
  - unfold add_suffix_for_uniqueness in *. rewrite (suffix_loop_ext _ (on_disk ex)) by exact Heq. exact H1.
  - rewrite Heq. apply on_disk_false, H2.
  - destruct H3 as [H3|(H3 & i & H4 & H5 & H6)]; [left; exact H3|right].
    exists i. split; [exact H4|]. split; [exact H5|]. split; [apply He, H3|].
    intros j Hj1 Hj2. apply He, H6; assumption.
Qed.
