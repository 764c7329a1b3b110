(** * Proofs about configuration handling *)
From Coq Require Import List String Arith Bool Lia.
From Verif Require Import M_io M_config.
Import ListNotations.

(** ** Dictionaries with identity *)
Section Heap.
  Variable atom : Type.
  Notation heap := (heap atom). Notation obj := (obj atom). Notation val := (val atom).

  Definition same_shape (x y : option val) : Prop :=
    match x, y with
    | None, None => True
    | Some (Atom a), Some (Atom b) => a = b
    | Some (Ref _), Some (Ref _) => True
    | _, _ => False
    end.

  (** No dangling references. *)
  Definition closed (h : heap) : Prop :=
    forall a o k b, nth_error h a = Some o -> In (k, Ref b) o -> b < List.length h.

  Lemma assoc_in (o : obj) k v : assoc o k = Some v -> In (k, v) o.
  Proof.
    induction o as [|[k' w] o IH]; simpl; [discriminate|].
    destruct (String.eqb_spec k' k) as [->|]; intros H; [injection H as ->; left; reflexivity|right; auto].
  Qed.

  Lemma nth_set_same (h : heap) i o : i < List.length h -> nth_error (set_nth h i o) i = Some o.
  Proof. revert i; induction h as [|x h IH]; intros [|i] H; simpl in *; try lia; auto. apply IH; lia. Qed.
  Lemma nth_set_other (h : heap) i j o : i <> j -> nth_error (set_nth h i o) j = nth_error h j.
  Proof.
    revert i j; induction h as [|x h IH]; intros [|i] [|j] H; simpl; auto; try congruence.
  Qed.
  Lemma length_set (h : heap) i o : List.length (set_nth h i o) = List.length h.
  Proof. revert i; induction h as [|x h IH]; intros [|i]; simpl; auto. Qed.

  Lemma lookup_agree lo hi (h2 h3 : heap) p : forall v,
    (forall i, lo <= i -> i < hi -> nth_error h3 i = nth_error h2 i) ->
    (forall p x, lookup h2 v p = Some (Ref x) -> lo <= x < hi) ->
    lookup h3 v p = lookup h2 v p.
  Proof.
    induction p as [|k p IH]; intros v Ha Hr; [reflexivity|]. simpl.
    destruct v as [a|a]; [reflexivity|].
    pose proof (Hr [] a eq_refl) as Hin. rewrite Ha by apply Hin.
    destruct (nth_error h2 a) as [o|] eqn:E1; [|reflexivity].
    destruct (assoc o k) as [w|] eqn:E2; [|reflexivity].
    apply IH; [exact Ha|]. intros q x Hq. apply (Hr (k :: q) x). simpl. rewrite E1, E2. exact Hq.
  Qed.

  Lemma lookup_closed (h : heap) p : forall v x,
    closed h -> match v with Ref a => a < List.length h | _ => True end ->
    lookup h v p = Some (Ref x) -> x < List.length h.
  Proof.
    induction p as [|k p IH]; intros v x Hc Hv H; simpl in H.
    - injection H as ->. exact Hv.
    - destruct v as [a|a]; [discriminate|]. destruct (nth_error h a) as [o|] eqn:E1; [|discriminate].
      destruct (assoc o k) as [w|] eqn:E2; [|discriminate].
      apply (IH w x Hc); [|exact H]. destruct w as [|b]; [exact I|]. apply assoc_in in E2. eapply Hc; eauto.
  Qed.

  (** The same object seen in a larger heap. *)
  Lemma lookup_ext (h h1 : heap) a p :
    closed h -> a < List.length h ->
    (forall i, i < List.length h -> nth_error h1 i = nth_error h i) ->
    lookup h1 (Ref a) p = lookup h (Ref a) p.
  Proof.
    intros Hc Ha He. apply (lookup_agree 0 (List.length h)).
    - intros; apply He; assumption.
    - intros q x Hx. split; [lia|]. eapply lookup_closed; eauto. exact Ha.
  Qed.

  (** [tree_at h0 b h' b' lo hi]: at b' in h' there is a tree of fresh objects, all in [lo, hi), with
      the shape of b in h0. *)
  Definition tree_at (h0 : heap) (b : nat) (h' : heap) (b' lo hi : nat) : Prop :=
    (forall p x, lookup h' (Ref b') p = Some (Ref x) -> lo <= x < hi) /\
    (forall p q x, lookup h' (Ref b') p = Some (Ref x) -> lookup h' (Ref b') q = Some (Ref x) -> p = q) /\
    (forall p, same_shape (lookup h0 (Ref b) p) (lookup h' (Ref b') p)).

  Lemma tree_at_agree h0 b h' h'' b' lo hi :
    tree_at h0 b h' b' lo hi ->
    (forall i, lo <= i -> i < hi -> nth_error h'' i = nth_error h' i) ->
    tree_at h0 b h'' b' lo hi.
  Proof.
    intros (T1 & T2 & T3) Ha.
    assert (E : forall p, lookup h'' (Ref b') p = lookup h' (Ref b') p).
    { intros p. apply (lookup_agree lo hi); assumption. }
    split; [|split].
    - intros p x H. rewrite E in H. apply (T1 _ _ H).
    - intros p q x. rewrite !E. apply T2.
    - intros p. rewrite E. apply T3.
  Qed.

  Inductive items_rel (h0 h' : heap) : nat -> obj -> obj -> nat -> Prop :=
  | ir_nil lo hi : lo <= hi -> items_rel h0 h' lo [] [] hi
  | ir_atom lo hi k x l o : items_rel h0 h' lo l o hi ->
      items_rel h0 h' lo ((k, Atom x) :: l) ((k, Atom x) :: o) hi
  | ir_ref lo mid hi k b b' l o : tree_at h0 b h' b' lo mid -> items_rel h0 h' mid l o hi ->
      items_rel h0 h' lo ((k, Ref b) :: l) ((k, Ref b') :: o) hi.

  Lemma tree_at_bounds h0 b h' b' lo hi : tree_at h0 b h' b' lo hi -> lo <= b' < hi.
  Proof. intros (T1 & _). apply (T1 [] b' eq_refl). Qed.

  Lemma items_rel_le h0 h' lo l o hi : items_rel h0 h' lo l o hi -> lo <= hi.
  Proof. induction 1 as [| |? ? ? ? ? ? ? ? T]; try lia. apply tree_at_bounds in T. lia. Qed.

  Lemma items_rel_agree h0 h' h'' lo l o hi :
    items_rel h0 h' lo l o hi ->
    (forall i, lo <= i -> i < hi -> nth_error h'' i = nth_error h' i) ->
    items_rel h0 h'' lo l o hi.
  Proof.
    induction 1 as [| |lo mid hi k b b' l o T HR IH]; intros Ha.
    - constructor; assumption.
    - constructor; auto.
    - econstructor.
      + eapply tree_at_agree; [exact T|]. intros; apply Ha; auto. apply items_rel_le in HR. lia.
      + apply IH. intros; apply Ha; auto. apply tree_at_bounds in T. lia.
  Qed.

  Lemma items_rel_lookup h0 h' lo l o hi k :
    items_rel h0 h' lo l o hi ->
    match assoc l k, assoc o k with
    | None, None => True
    | Some (Atom x), Some (Atom y) => x = y
    | Some (Ref b), Some (Ref b') => exists m1 m2, lo <= m1 /\ m2 <= hi /\ tree_at h0 b h' b' m1 m2
    | _, _ => False
    end.
  Proof.
    induction 1 as [|lo hi k' x l o HR IH|lo mid hi k' b b' l o T HR IH]; simpl; [exact I| |];
      destruct (String.eqb k' k).
    - reflexivity.
    - exact IH.
    - exists lo, mid. apply items_rel_le in HR. auto.
    - destruct (assoc l k) as [[|]|], (assoc o k) as [[|]|]; auto.
      destruct IH as (m1 & m2 & ? & ? & ?). exists m1, m2. apply tree_at_bounds in T.
      split; [lia|]. split; assumption.
  Qed.

  Lemma items_rel_disjoint h0 h' lo l o hi k1 k2 b1 b2 p1 p2 x :
    items_rel h0 h' lo l o hi -> assoc o k1 = Some (Ref b1) -> assoc o k2 = Some (Ref b2) ->
    lookup h' (Ref b1) p1 = Some (Ref x) -> lookup h' (Ref b2) p2 = Some (Ref x) -> k1 = k2.
  Proof.
    assert (In_range : forall lo l o hi k b p, items_rel h0 h' lo l o hi -> assoc o k = Some (Ref b) ->
              lookup h' (Ref b) p = Some (Ref x) -> lo <= x < hi).
    { intros lo' l' o' hi' k b p HR Hk Hp. pose proof (items_rel_lookup _ _ _ _ _ _ k HR) as HL.
      rewrite Hk in HL. destruct (assoc l' k) as [[|]|]; try contradiction.
      destruct HL as (m1 & m2 & ? & ? & T1 & _). specialize (T1 _ _ Hp). lia. }
    induction 1 as [|lo hi k' y l o HR IH|lo mid hi k' b b' l o T HR IH]; simpl; intros H1 H2 L1 L2.
    - discriminate.
    - destruct (String.eqb k' k1); [discriminate|]. destruct (String.eqb k' k2); [discriminate|]. auto.
    - destruct (String.eqb_spec k' k1) as [->|N1], (String.eqb_spec k1 k2) as [E|N2]; auto.
      + injection H1 as ->.
        destruct T as (T1 & _). specialize (T1 _ _ L1). pose proof (In_range _ _ _ _ _ _ _ HR H2 L2). lia.
      + destruct (String.eqb_spec k' k2) as [->|N3]; [|auto].
        injection H2 as ->. destruct T as (T1 & _). specialize (T1 _ _ L2).
        pose proof (In_range _ _ _ _ _ _ _ HR H1 L1). lia.
  Qed.

  Definition good (h : heap) (a : nat) (h' : heap) (a' : nat) : Prop :=
    closed h' /\ List.length h < List.length h' /\
    (forall i, i < List.length h -> nth_error h' i = nth_error h i) /\
    tree_at h a h' a' (List.length h) (List.length h').

  Lemma closed_snoc (h : heap) : closed h -> closed (h ++ [[]]).
  Proof.
    intros Hc a o k b Ha Hin. rewrite app_length. simpl.
    destruct (lt_dec a (List.length h)).
    - rewrite nth_error_app1 in Ha by assumption. specialize (Hc _ _ _ _ Ha Hin). lia.
    - rewrite nth_error_app2 in Ha by lia. destruct (a - List.length h) as [|[|]]; simpl in Ha; try discriminate.
      injection Ha as <-. destruct Hin.
  Qed.

  Lemma copy_items_good cp (h0 : heap) : closed h0 ->
    (forall h a h' a', closed h -> a < List.length h -> cp h a = Some (h', a') -> good h a h' a') ->
    forall l h h' o',
    closed h -> List.length h0 <= List.length h ->
    (forall i, i < List.length h0 -> nth_error h i = nth_error h0 i) ->
    (forall k b, In (k, Ref b) l -> b < List.length h0) ->
    copy_items cp h l = Some (h', o') ->
    closed h' /\ List.length h <= List.length h' /\
    (forall i, i < List.length h -> nth_error h' i = nth_error h i) /\
    items_rel h0 h' (List.length h) l o' (List.length h').
  Proof.
    intros Hc0 Hcp. induction l as [|[k [x|b]] l IH]; intros h h' o' Hc Hlen Hpre Hl H; simpl in H.
    - injection H as <- <-. repeat split; auto. constructor; lia.
    - destruct (copy_items cp h l) as [[h1 o1]|] eqn:E; [|discriminate]. injection H as <- <-.
      destruct (IH h h1 o1) as (A & B & C & E1); auto. { intros; apply (Hl k0); right; assumption. }
      repeat split; auto. constructor; exact E1.
    - destruct (cp h b) as [[h1 b1]|] eqn:E; [|discriminate].
      destruct (copy_items cp h1 l) as [[h2 o1]|] eqn:E2; [|discriminate]. injection H as <- <-.
      assert (Hb : b < List.length h0) by (apply (Hl k); left; reflexivity).
      destruct (Hcp h b h1 b1 Hc ltac:(lia) E) as (A & B & C & T).
      destruct (IH h1 h2 o1) as (A' & B' & C' & R); auto; try lia.
      { intros i Hi. rewrite C by lia. apply Hpre, Hi. }
      { intros; apply (Hl k0); right; assumption. }
      split; [exact A'|]. split; [lia|]. split; [intros i Hi; rewrite C' by lia; apply C, Hi|].
      econstructor; [|exact R]. apply (tree_at_agree h0 b h1).
      + destruct T as (T1 & T2 & T3). split; [exact T1|]. split; [exact T2|]. intros p.
        rewrite <- (lookup_ext h0 h b p Hc0 Hb Hpre). apply T3.
      + intros i _ Hi. apply C'. exact Hi.
  Qed.

  Lemma copy_good fuel : forall h a h' a',
    closed h -> a < List.length h -> copy_all_dicts fuel h a = Some (h', a') -> good h a h' a'.
  Proof.
    induction fuel as [|f IH]; intros h a h' a' Hc Ha H; simpl in H; [discriminate|].
    destruct (nth_error h a) as [o|] eqn:Eo; [|discriminate].
    destruct (copy_items (copy_all_dicts f) (h ++ [[]]) o) as [[h1 o1]|] eqn:E; [|discriminate].
    injection H as <- <-.
    destruct (copy_items_good (copy_all_dicts f) h Hc IH o (h ++ [[]]) h1 o1) as (A & B & C & R); auto.
    { apply closed_snoc, Hc. } { rewrite app_length; lia. }
    { intros i Hi. apply nth_error_app1, Hi. } { intros k b Hk. eapply Hc; eauto. }
    rewrite app_length in B, C, R. simpl in B, C, R.
    set (r := List.length h) in *.
    set (h' := set_nth h1 r o1).
    assert (Er : nth_error h' r = Some o1) by (apply nth_set_same; lia).
    assert (Ro : forall i, i <> r -> nth_error h' i = nth_error h1 i) by (intros; apply nth_set_other; auto).
    assert (R' : items_rel h h' (r + 1) o o1 (List.length h1)).
    { eapply items_rel_agree; [exact R|]. intros; apply Ro; lia. }
    assert (L : List.length h' = List.length h1) by apply length_set.
    split; [|split; [lia|split]].
    - (* closed *)
      intros b ob k c Hb Hin. rewrite L. destruct (Nat.eq_dec b r) as [->|N].
      + rewrite Er in Hb. injection Hb as <-.
        clear -R' Hin. induction R' as [| |lo mid hi k' b b' l o T HR IH]; simpl in Hin; [destruct Hin| |].
        * destruct Hin as [Hin|Hin]; [discriminate|auto].
        * destruct Hin as [Hin|Hin]; [|auto]. injection Hin as _ <-. apply tree_at_bounds in T.
          apply items_rel_le in HR. lia.
      + rewrite Ro in Hb by exact N. eapply A; eauto.
    - intros i Hi. rewrite Ro by lia. rewrite C by lia. apply nth_error_app1, Hi.
    - rewrite L. split; [|split].
      + intros [|k p] x Hx; simpl in Hx.
        * injection Hx as <-. lia.
        * rewrite Er in Hx. destruct (assoc o1 k) as [w|] eqn:Ek; [|discriminate].
          pose proof (items_rel_lookup _ _ _ _ _ _ k R') as HL. rewrite Ek in HL.
          destruct w as [y|b']; [destruct p; discriminate|].
          destruct (assoc o k) as [[|]|]; try contradiction.
          destruct HL as (m1 & m2 & ? & ? & T1 & _). specialize (T1 _ _ Hx). lia.
      + assert (G : forall k p x, lookup h' (Ref r) (k :: p) = Some (Ref x) ->
                  exists b', assoc o1 k = Some (Ref b') /\ lookup h' (Ref b') p = Some (Ref x) /\ r < x).
        { intros k p x Hx. simpl in Hx. rewrite Er in Hx. destruct (assoc o1 k) as [w|] eqn:Ek; [|discriminate].
          pose proof (items_rel_lookup _ _ _ _ _ _ k R') as HL. rewrite Ek in HL.
          destruct w as [y|b']; [destruct p; discriminate|]. exists b'. split; [reflexivity|]. split; [exact Hx|].
          destruct (assoc o k) as [[|]|]; try contradiction.
          destruct HL as (m1 & m2 & ? & ? & T1 & _). specialize (T1 _ _ Hx). lia. }
        intros [|k1 p1] [|k2 p2] x H1 H2; auto.
        * simpl in H1. injection H1 as <-. apply G in H2. destruct H2 as (? & _ & _ & C2). lia.
        * simpl in H2. injection H2 as <-. apply G in H1. destruct H1 as (? & _ & _ & C2). lia.
        * apply G in H1, H2. destruct H1 as (b1 & K1 & L1 & _), H2 as (b2 & K2 & L2 & _).
          pose proof (items_rel_disjoint _ _ _ _ _ _ _ _ _ _ _ _ _ R' K1 K2 L1 L2) as <-.
          rewrite K1 in K2. injection K2 as <-. f_equal.
          pose proof (items_rel_lookup _ _ _ _ _ _ k1 R') as HL. rewrite K1 in HL.
          destruct (assoc o k1) as [[|]|]; try contradiction.
          destruct HL as (m1 & m2 & _ & _ & _ & T2 & _). eapply T2; eauto.
      + intros [|k p]; simpl; [exact I|]. rewrite Eo, Er.
        pose proof (items_rel_lookup _ _ _ _ _ _ k R') as HL.
        destruct (assoc o k) as [[y|b]|], (assoc o1 k) as [[y'|b']|]; try contradiction.
        * subst y'. destruct p; simpl; auto.
        * destruct HL as (m1 & m2 & _ & _ & _ & _ & T3). apply T3.
        * exact I.
  Qed.

  (** ** Termination: enough fuel for the nesting depth *)
  (** All chains of references from [v] have fewer than [n] dictionaries. *)
  Fixpoint depth_lt (n : nat) (h : heap) (v : val) : Prop :=
    match v with
    | Atom _ => True
    | Ref a =>
        match n with
        | O => False
        | S m => forall o k w, nth_error h a = Some o -> In (k, w) o -> depth_lt m h w
        end
    end.

  Lemma depth_lt_ext n (h h1 : heap) : closed h ->
    (forall i, i < List.length h -> nth_error h1 i = nth_error h i) ->
    forall v, match v with Ref a => a < List.length h | _ => True end -> depth_lt n h v -> depth_lt n h1 v.
  Proof.
    intros Hc He. induction n as [|n IH]; intros [x|a] Hv H; simpl in *; auto.
    intros o k w Ho Hin. rewrite He in Ho by exact Hv. apply IH; [|eapply H; eauto].
    destruct w as [|b]; [exact I|]. eapply Hc; eauto.
  Qed.

  Lemma copy_succeeds fuel : forall h a,
    closed h -> a < List.length h -> depth_lt fuel h (Ref a) -> exists h' a', copy_all_dicts fuel h a = Some (h', a').
  Proof.
    induction fuel as [|f IH]; intros h a Hc Ha Hd; [destruct Hd|].
    simpl in Hd. simpl. destruct (nth_error h a) as [o|] eqn:Eo; [|apply nth_error_None in Eo; lia].
    assert (G : forall l h1, closed h1 -> List.length h <= List.length h1 ->
       (forall i, i < List.length h -> nth_error h1 i = nth_error h i) ->
       (forall k b, In (k, Ref b) l -> b < List.length h /\ depth_lt f h (Ref b)) ->
       exists h2 o2, copy_items (copy_all_dicts f) h1 l = Some (h2, o2)).
    { induction l as [|[k [x|b]] l IHl]; intros h1 C1 L1 P1 Hl; simpl.
      - eauto.
      - destruct (IHl h1) as (h2 & o2 & ->); auto. { intros; apply (Hl k0); right; assumption. } eauto.
      - destruct (Hl k b (or_introl eq_refl)) as [Hb Hdb].
        destruct (IH h1 b C1 ltac:(lia)) as (h2 & b2 & E2). { apply (depth_lt_ext f h h1 Hc P1 (Ref b) Hb Hdb). }
        rewrite E2. destruct (copy_good f h1 b h2 b2 C1 ltac:(lia) E2) as (A & B & C & _).
        destruct (IHl h2) as (h3 & o3 & ->); auto; try lia.
        { intros i Hi. rewrite C by lia. apply P1, Hi. }
        { intros; apply (Hl k0); right; assumption. } eauto. }
    destruct (G o (h ++ [[]])) as (h2 & o2 & ->).
    - apply closed_snoc, Hc.
    - rewrite app_length; lia.
    - intros; apply nth_error_app1; assumption.
    - intros k b Hin. split; [eapply Hc; eauto|]. eapply Hd; eauto.
    - eauto.
  Qed.

  (** ** Assigning through one path *)
  Lemma assoc_set_same (o : obj) k v : assoc (assoc_set o k v) k = Some v.
  Proof.
    induction o as [|[k' w] o IH]; simpl; [rewrite String.eqb_refl; reflexivity|].
    destruct (String.eqb k' k) eqn:E; simpl; rewrite E; auto.
  Qed.
  Lemma assoc_set_other (o : obj) k k' v : k <> k' -> assoc (assoc_set o k v) k' = assoc o k'.
  Proof.
    intros N. induction o as [|[k2 w] o IH]; simpl.
    - destruct (String.eqb_spec k k'); [contradiction|reflexivity].
    - destruct (String.eqb_spec k2 k) as [->|]; simpl; [destruct (String.eqb_spec k k'); [contradiction|reflexivity]|].
      destruct (String.eqb k2 k'); auto.
  Qed.
  Lemma assign_same (h : heap) a o k v : nth_error h a = Some o -> nth_error (assign h a k v) a = Some (assoc_set o k v).
  Proof.
    intros H. unfold assign. rewrite H. apply nth_set_same. apply nth_error_Some. congruence.
  Qed.
  Lemma assign_other (h : heap) a b k v : a <> b -> nth_error (assign h a k v) b = nth_error h b.
  Proof. intros H. unfold assign. destruct (nth_error h a); [apply nth_set_other, H|reflexivity]. Qed.

  Lemma lookup_app (h : heap) p q : forall v,
    lookup h v (p ++ q) = match lookup h v p with Some w => lookup h w q | None => None end.
  Proof.
    induction p as [|k p IH]; intros v; [reflexivity|]. simpl. destruct v as [|a]; [reflexivity|].
    destruct (nth_error h a) as [o|]; [|reflexivity]. destruct (assoc o k); auto.
  Qed.

  (** In a heap where the objects below [root] are all distinct, an assignment at [p ++ [k]] is
      visible only under [p ++ [k]]. *)
  Lemma assign_isolated (h : heap) root p x k v q :
    (forall p q x, lookup h (Ref root) p = Some (Ref x) -> lookup h (Ref root) q = Some (Ref x) -> p = q) ->
    lookup h (Ref root) p = Some (Ref x) ->
    (forall s, q <> p ++ k :: s) ->
    lookup (assign h x k v) (Ref root) q = lookup h (Ref root) q.
  Proof.
    intros Hu Hp Hq.
    assert (G : forall q2 q1 w, q = q1 ++ q2 -> lookup h (Ref root) q1 = Some w ->
              lookup (assign h x k v) w q2 = lookup h w q2).
    { induction q2 as [|k2 q2 IH]; intros q1 w E Hw; [reflexivity|]. simpl.
      destruct w as [|b]; [reflexivity|].
      destruct (Nat.eq_dec x b) as [<-|N].
      - pose proof (Hu _ _ _ Hw Hp) as ->.
        assert (Nk : k <> k2). { intros ->. apply (Hq q2 E). }
        destruct (nth_error h x) as [o|] eqn:Eo.
        + rewrite (assign_same h x o k v Eo), assoc_set_other by exact Nk.
          destruct (assoc o k2) as [w|] eqn:Ew; [|reflexivity].
          apply (IH (p ++ [k2])); [rewrite <- app_assoc; exact E|].
          rewrite lookup_app, Hp. simpl. rewrite Eo, Ew. reflexivity.
        + unfold assign. rewrite Eo, Eo. reflexivity.
      - rewrite assign_other by exact N. destruct (nth_error h b) as [o|] eqn:Eo; [|reflexivity].
        destruct (assoc o k2) as [w|] eqn:Ew; [|reflexivity].
        apply (IH (q1 ++ [k2])); [rewrite <- app_assoc; exact E|].
        rewrite lookup_app, Hw. simpl. rewrite Eo, Ew. reflexivity. }
    apply (G q [] (Ref root) eq_refl eq_refl).
  Qed.

  Lemma assign_visible (h : heap) root p x k v :
    (forall p q x, lookup h (Ref root) p = Some (Ref x) -> lookup h (Ref root) q = Some (Ref x) -> p = q) ->
    lookup h (Ref root) p = Some (Ref x) -> x < List.length h ->
    lookup (assign h x k v) (Ref root) (p ++ [k]) = Some v.
  Proof.
    intros Hu Hp Hx. rewrite lookup_app.
    rewrite (assign_isolated h root p x k v p Hu Hp), Hp.
    - simpl. destruct (nth_error h x) as [o|] eqn:Eo; [|apply nth_error_None in Eo; lia].
      rewrite (assign_same h x o k v Eo), assoc_set_same. reflexivity.
    - intros s E. apply (f_equal (@List.length string)) in E. rewrite app_length in E. simpl in E. lia.
  Qed.
End Heap.
