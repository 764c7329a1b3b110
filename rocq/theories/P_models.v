(** * Split sizes (C42), log-domain networks (C52), cyclic order of the spin blocks (C55) *)
From Coq Require Import Reals List Bool Arith Lia Permutation Lra ZArith.
From Verif Require Import XReal Rsum S_physics M_slog M_models S_models P_xsum P_split P_equiv P_equiv2 P_slog.
Import ListNotations.
Local Open Scope R_scope.

(** ** Sizes *)
Definition zsum (l : list Z) : Z := fold_right Z.add 0%Z l.
Lemma zsum_app l l' : zsum (l ++ l') = (zsum l + zsum l')%Z.
Proof. induction l as [|a l IH]; cbn [app zsum fold_right]; [reflexivity|]. fold (zsum (l ++ l')) (zsum l). rewrite IH. lia. Qed.
Lemma diffs_sum r : forall a, (a + zsum (diffs a r) = last (a :: r) 0)%Z.
Proof.
  induction r as [|b r IH]; intros a; [cbn; lia|]. cbn [diffs zsum fold_right]. fold (zsum (diffs b r)). specialize (IH b).
  change (last (a :: b :: r) 0%Z) with (last (b :: r) 0%Z). lia.
Qed.
Lemma last_map_Z l : last (map Z.of_nat l) 0%Z = Z.of_nat (last l O).
Proof. induction l as [|a [|b l] IH]; [reflexivity|reflexivity|]. exact IH. Qed.

Lemma nelec_total_any sp n l : get_nelec_per_split sp n = Some l -> (forall k, sp = Equal k -> exists m, n = (m * k)%nat) -> zsum l = Z.of_nat n.
Proof.
  destruct sp as [k|[|i r]]; cbn [get_nelec_per_split]; [|discriminate|].
  - destruct (Nat.eqb_spec k 0) as [|NZ]; [discriminate|]. intros E H. injection E as <-. destruct (H k eq_refl) as (m & ->). rewrite Nat.div_mul by exact NZ.
    clear. induction k as [|k IH]; [rewrite Nat.mul_0_r; reflexivity|]. cbn [repeat zsum fold_right]. fold (zsum (repeat (Z.of_nat m) k)). rewrite IH. lia.
  - intros E _. injection E as <-. cbn [zsum fold_right]. fold (zsum (diffs (Z.of_nat i) (map Z.of_nat r) ++ [(Z.of_nat n - Z.of_nat (last (i :: r) O))%Z])).
    rewrite zsum_app. pose proof (diffs_sum (map Z.of_nat r) (Z.of_nat i)) as D.
    change (Z.of_nat i :: map Z.of_nat r) with (map Z.of_nat (i :: r)) in D. rewrite last_map_Z in D.
    cbn [zsum fold_right]. fold (zsum (diffs (Z.of_nat i) (map Z.of_nat r))). fold (last (i :: r) O). change (match r with [] => i | _ :: _ => last r O end) with (last (i :: r) O). lia.
Qed.

Lemma last_ends o sizes : (2 <= length sizes)%nat -> last (ends o sizes) O = (o + list_sum (removelast sizes))%nat.
Proof.
  revert o. induction sizes as [|m [|m' [|m'' r]] IH]; intros o H; cbn [length] in H; try lia.
  - cbn. lia.
  - rewrite ends_cons. specialize (IH (o + m)%nat ltac:(cbn [length]; lia)).
    change (last ((o + m)%nat :: ends (o + m) (m' :: m'' :: r)) O) with (last (ends (o + m) (m' :: m'' :: r)) O). rewrite IH.
    change (removelast (m :: m' :: m'' :: r)) with (m :: removelast (m' :: m'' :: r)). rewrite list_sum_cons. lia.
Qed.
Lemma diffs_ends r : forall o m, diffs (Z.of_nat (o + m)) (map Z.of_nat (ends (o + m) r)) = map Z.of_nat (removelast r).
Proof.
  induction r as [|a [|b r] IH]; intros o m; [reflexivity|reflexivity|]. rewrite ends_cons. cbn [map diffs]. rewrite (IH (o + m)%nat a).
  change (removelast (a :: b :: r)) with (a :: removelast (b :: r)). cbn [map]. f_equal. lia.
Qed.
Lemma nelec_describes sp sizes : describes sp sizes -> sp <> At [] -> get_nelec_per_split sp (list_sum sizes) = Some (map Z.of_nat sizes).
Proof.
  intros (NE & [(k & m & -> & ->)| ->]) H.
  - cbn. destruct (Nat.eqb_spec k 0) as [->|NZ]; [exfalso; apply NE; reflexivity|]. rewrite list_sum_repeat, Nat.mul_comm, Nat.div_mul by exact NZ.
    f_equal. clear. induction k as [|k IH]; [reflexivity|]. cbn. rewrite IH. reflexivity.
  - destruct sizes as [|m [|m' r]]; [congruence|exfalso; apply H; reflexivity|]. rewrite ends_cons. cbn [get_nelec_per_split Nat.add].
    pose proof (diffs_ends (m' :: r) 0 m) as D. cbn [Nat.add] in D. rewrite D.
    assert (LE : last (m :: ends m (m' :: r)) O = list_sum (removelast (m :: m' :: r))).
    { pose proof (last_ends 0 (m :: m' :: r) ltac:(cbn; lia)) as E. rewrite ends_cons in E. cbn [Nat.add] in E. exact E. }
    rewrite LE. f_equal. cbn [map].
    assert (S : list_sum (m :: m' :: r) = (list_sum (removelast (m :: m' :: r)) + last (m :: m' :: r) 0)%nat).
    { rewrite (app_removelast_last 0%nat (l := m :: m' :: r)) at 1 by discriminate. rewrite list_sum_app. cbn [list_sum fold_right]. lia. }
    rewrite S. f_equal. change (Z.of_nat m' :: map Z.of_nat r) with (map Z.of_nat (m' :: r)).
    assert (AR : map Z.of_nat (m' :: r) = map Z.of_nat (removelast (m' :: r)) ++ [Z.of_nat (last (m' :: r) O)]).
    { rewrite (app_removelast_last 0%nat (l := m' :: r)) at 1 by discriminate. rewrite map_app. reflexivity. }
    rewrite AR. do 2 f_equal. change (last (m :: m' :: r) 0%nat) with (last (m' :: r) 0%nat). lia.
Qed.

Lemma cumsum_ends sizes o : cumsum o (removelast sizes) = ends o sizes.
Proof.
  revert o; induction sizes as [|m [|m' r] IH]; intros o; [reflexivity|reflexivity|]. rewrite ends_cons.
  change (removelast (m :: m' :: r)) with (m :: removelast (m' :: r)). cbn [cumsum]. rewrite IH. reflexivity.
Qed.

(** Every increasing list of positions is a spin specification. *)
Lemma increasing_describes idx : forall o n, (forall a, In a (o :: idx) -> (a <= n)%nat) ->
  (forall i j, (i <= j < length (o :: idx))%nat -> (nth i (o :: idx) 0 <= nth j (o :: idx) 0)%nat) ->
  exists sizes, sizes <> [] /\ idx = ends o sizes /\ (o + list_sum sizes)%nat = n.
Proof.
  induction idx as [|i r IH]; intros o n B M.
  - exists [(n - o)%nat]. split; [discriminate|]. split; [reflexivity|]. specialize (B o (or_introl eq_refl)). cbn. lia.
  - destruct (IH i n) as (sizes & NE & E & S).
    + intros a Ha. apply B. right. exact Ha.
    + intros a b H. apply (M (S a) (S b)). cbn [length] in *. lia.
    + assert (o <= i)%nat by (apply (M 0 1)%nat; cbn; lia).
      exists ((i - o)%nat :: sizes). split; [discriminate|]. destruct sizes as [|m q]; [congruence|]. split.
      * rewrite ends_cons. replace (o + (i - o))%nat with i by lia. rewrite <- E. reflexivity.
      * rewrite list_sum_cons. lia.
Qed.

(** ** Log-domain networks *)
Lemma column_rweighted w x f : column w x f = rweighted (fun i => w i f) x.
Proof. reflexivity. Qed.
Lemma slog_sum_of a b : a <> 0 \/ b <> 0 -> slog_sum (slog_of a) (slog_of b) = Some (slog_of (a + b)).
Proof.
  intros H. unfold slog_sum, slog_array_list_sum, slog_sum_over_axis. change [slog_of a; slog_of b] with (map slog_of [a; b]).
  rewrite log_linear_exp_of; [cbn; do 2 f_equal; ring|]. destruct H; [exists a|exists b]; cbn; auto.
Qed.
Lemma slog_sum_zeros : slog_sum (slog_of 0) (slog_of 0) = Some (NaN, NaN).
Proof.
  unfold slog_sum, slog_array_list_sum, slog_sum_over_axis. change [slog_of 0; slog_of 0] with (map slog_of [0; 0]). apply log_linear_exp_zeros; [discriminate|].
  intros x [<-|[<-|[]]]; reflexivity.
Qed.
Lemma sequence_sum y x : length y = length x -> (forall k, (k < length y)%nat -> nth k y 0 <> 0 \/ nth k x 0 <> 0) ->
  sequence (map (fun p => slog_sum (fst p) (snd p)) (combine (map slog_of y) (map slog_of x))) = Some (map slog_of (map (fun p => fst p + snd p) (combine y x))).
Proof.
  revert x. induction y as [|a y IH]; intros [|b x] L H; try discriminate; [reflexivity|]. cbn [map combine fst snd sequence].
  rewrite (slog_sum_of a b) by (apply (H O); cbn; lia).
  rewrite IH; [reflexivity|cbn in L; lia|]. intros k Hk. apply (H (S k)). cbn. lia.
Qed.

Lemma log_layer_of nd act ract w x : (forall v, act (slog_of v) = slog_of (ract v)) ->
  (length x = nd -> forall k, (k < nd)%nat -> nth k (real_hidden nd ract w x) 0 <> 0 \/ nth k x 0 <> 0) ->
  log_resnet_layer nd act true (Some (map slog_of x)) (fun i f => Fin (w i f)) = Some (map slog_of (real_next nd ract w x)).
Proof.
  intros A H. unfold log_resnet_layer. rewrite log_dense_bias. rewrite (dense_fin nd w (Some (fun f => w (length x) f)) x). cbv zeta beta iota.
  assert (E : map act (map array_to_slog (map (fun f => Fin (rweighted (fun i => w i f) x + w (length x) f)) (seq 0 nd))) = map slog_of (real_hidden nd ract w x)).
  { unfold real_hidden. rewrite !map_map. apply map_ext. intros f. rewrite to_slog_fin, A. reflexivity. }
  rewrite E. unfold real_next. cbv zeta. rewrite !map_length. unfold real_hidden at 1. rewrite map_length, seq_length.
  destruct (Nat.eqb_spec (length x) nd) as [L|L]; [|reflexivity]. apply sequence_sum; unfold real_hidden at 1; rewrite map_length, seq_length; [lia|].
  intros k Hk. apply H; assumption.
Qed.

Lemma log_net_of nd nf act ract wf : (forall v, act (slog_of v) = slog_of (ract v)) -> forall ws x, no_zero_sums nd ract ws x ->
  log_domain_resnet nd nf act true (map (fun w i f => Fin (w i f)) ws) (fun i f => Fin (wf i f)) (map slog_of x) = Some (map slog_of (real_net nd nf ract ws wf x)).
Proof.
  intros A. unfold log_domain_resnet, real_net. induction ws as [|w ws IH]; intros x H.
  - cbn [map fold_left]. rewrite log_dense_nobias by exact H. rewrite (dense_fin nf wf None x), map_map. unfold real_out. rewrite map_map. f_equal. apply map_ext.
    intros f. rewrite to_slog_fin, column_rweighted, Rplus_0_r. reflexivity.
  - destruct H as (H & H'). cbn [map fold_left]. rewrite (log_layer_of nd act ract w x A H). apply IH. exact H'.
Qed.

Lemma next_fin nd xact ract w x : (forall v, xact (Fin v) = Fin (ract v)) ->
  resnet_layer nd xact (map Fin x) (fun i f => Fin (w i f), Some (fun f => Fin (w (length x) f))) = map Fin (real_next nd ract w x).
Proof.
  intros A. unfold resnet_layer. cbn [fst snd]. rewrite (dense_fin nd w (Some (fun f => w (length x) f)) x). cbv zeta beta iota.
  assert (E : map xact (map (fun f => Fin (rweighted (fun i => w i f) x + w (length x) f)) (seq 0 nd)) = map Fin (real_hidden nd ract w x)).
  { unfold real_hidden. rewrite !map_map. apply map_ext. intros f. apply A. }
  rewrite E. rewrite !map_length. unfold real_next. cbv zeta. unfold real_hidden at 1. rewrite map_length, seq_length.
  destruct (Nat.eqb (length x) nd); [|reflexivity]. clear E. generalize (real_hidden nd ract w x) as y. intros y. revert x. induction y as [|a y IH]; intros [|b x]; try reflexivity.
  cbn [map combine fst snd]. rewrite IH. reflexivity.
Qed.
Lemma real_next_length nd act w x : length (real_next nd act w x) = nd.
Proof.
  unfold real_next. cbv zeta. destruct (Nat.eqb_spec (length x) nd) as [L|L]; [rewrite map_length, combine_length|]; unfold real_hidden; rewrite map_length, seq_length; lia.
Qed.
(** The biases of the ordinary network: row [number of inputs] of the weights of every layer. *)
Fixpoint with_bias (nd d : nat) (ws : list (nat -> nat -> R)) : list ((nat -> nat -> xr) * option (nat -> xr)) :=
  match ws with
  | [] => []
  | w :: r => (fun i f => Fin (w i f), Some (fun f => Fin (w d f))) :: with_bias nd nd r
  end.
Lemma net_fin nd nf xact ract wf : (forall v, xact (Fin v) = Fin (ract v)) -> forall ws x,
  simple_resnet nd nf xact (with_bias nd (length x) ws) (fun i f => Fin (wf i f)) (map Fin x) = map Fin (real_net nd nf ract ws wf x).
Proof.
  intros A. unfold simple_resnet, real_net. induction ws as [|w ws IH]; intros x.
  - cbn [with_bias fold_left]. rewrite (dense_fin nf wf None x). unfold real_out. rewrite map_map. apply map_ext. intros f. rewrite column_rweighted, Rplus_0_r. reflexivity.
  - cbn [with_bias fold_left]. rewrite (next_fin nd xact ract w x A). specialize (IH (real_next nd ract w x)). rewrite real_next_length in IH. exact IH.
Qed.

(** ** Cyclic order *)
Lemma nth_roll {A} r (l : list A) j d : (r < length l)%nat -> (j < length l)%nat -> nth j (roll r l) d = nth ((r + j) mod length l) l d.
Proof.
  intros Hr Hj. unfold roll. destruct (Nat.lt_ge_cases j (length l - r)) as [A1|A1].
  - rewrite app_nth1 by (rewrite skipn_length; exact A1). rewrite Nat.mod_small by lia.
    rewrite <- (firstn_skipn r l) at 2. rewrite app_nth2 by (rewrite firstn_length; lia). rewrite firstn_length. f_equal. lia.
  - rewrite app_nth2 by (rewrite skipn_length; lia). rewrite skipn_length.
    replace (r + j)%nat with ((r + j - length l) + 1 * length l)%nat by lia. rewrite Nat.mod_add by lia. rewrite Nat.mod_small by lia.
    rewrite <- (firstn_skipn r l) at 4. rewrite app_nth1 by (rewrite firstn_length; lia). f_equal. lia.
Qed.
Lemma roll_cyclic {A} b (l : list A) d : (b < length l)%nat -> roll b l = map (fun j => nth j l d) (cyclic_from (length l) b).
Proof.
  intros H. unfold cyclic_from. rewrite map_map. apply (list_eq_nth _ _ d); [rewrite roll_length, map_length, seq_length; reflexivity|].
  intros j Hj. rewrite roll_length in Hj. rewrite nth_map_seq by exact Hj. apply nth_roll; assumption.
Qed.
Lemma mod_add_mod b r j k : (k <> 0)%nat -> ((b + r) mod k + j) mod k = (r + (b + j) mod k) mod k.
Proof. intros NZ. rewrite Nat.add_mod_idemp_l, Nat.add_mod_idemp_r by exact NZ. f_equal. lia. Qed.
Lemma roll_roll {A} b r (l : list A) : (b < length l)%nat -> (r < length l)%nat -> roll b (roll r l) = roll ((b + r) mod length l) l.
Proof.
  intros Hb Hr. destruct l as [|a l']; [cbn in Hb; lia|]. set (l := a :: l') in *.
  apply (list_eq_nth _ _ a); [rewrite !roll_length; reflexivity|]. intros j Hj. rewrite !roll_length in Hj.
  rewrite nth_roll by (rewrite roll_length; assumption). rewrite roll_length.
  rewrite nth_roll by (try assumption; apply Nat.mod_upper_bound; lia).
  rewrite nth_roll by (try assumption; apply Nat.mod_upper_bound; lia). f_equal. symmetry. apply mod_add_mod. lia.
Qed.
Lemma mapi_roll {A B} (f g : nat -> A -> B) r l : (r < length l)%nat -> (forall b a, (b < length l)%nat -> f b a = g ((b + r) mod length l) a) ->
  mapi f (roll r l) = roll r (mapi g l).
Proof.
  intros Hr H. destruct l as [|a l']; [cbn in Hr; lia|]. set (l := a :: l') in *.
  apply (list_eq_nth _ _ (g O a)); [rewrite mapi_length, !roll_length, mapi_length; reflexivity|]. intros j Hj. rewrite mapi_length, roll_length in Hj.
  rewrite (mapi_nth f _ j a) by (rewrite roll_length; exact Hj). rewrite !nth_roll by (rewrite ?mapi_length; assumption). rewrite mapi_length.
  rewrite (mapi_nth g _ _ a) by (apply Nat.mod_upper_bound; lia). rewrite H by exact Hj. f_equal. rewrite Nat.add_comm. reflexivity.
Qed.
Lemma roll_sizes_concat {A} r (bs : list (list A)) : concat (roll r bs) = roll (length (concat (firstn r bs))) (concat bs).
Proof.
  assert (E : concat bs = concat (firstn r bs) ++ concat (skipn r bs)) by (rewrite <- concat_app, firstn_skipn; reflexivity).
  unfold roll. rewrite E, concat_app. generalize (concat (firstn r bs)) (concat (skipn r bs)). intros a b.
  rewrite skipn_app, firstn_app, Nat.sub_diag, skipn_all, firstn_all. cbn [skipn firstn app]. rewrite app_nil_r. reflexivity.
Qed.
Lemma concat_length_sum {A} (bs : list (list A)) : length (concat bs) = list_sum (map (@length A) bs).
Proof. induction bs as [|b bs IH]; [reflexivity|]. cbn [concat map]. rewrite app_length, list_sum_cons, IH. reflexivity. Qed.
Lemma cut_roll {A} sizes r (l : list A) : length l = list_sum sizes -> cut (roll r sizes) (roll (offset sizes r) l) = roll r (cut sizes l).
Proof.
  intros L. pose proof (cut_sizes sizes l L) as CS. pose proof (cut_concat sizes l L) as CC.
  assert (E : roll (offset sizes r) l = concat (roll r (cut sizes l))).
  { rewrite roll_sizes_concat, CC. f_equal. rewrite concat_length_sum. rewrite <- firstn_map, CS. reflexivity. }
  rewrite E. rewrite <- CS at 1. rewrite roll_map. apply cut_of_concat.
Qed.

Lemma nth_roll_le {A} o (l : list A) j d : (o <= length l)%nat -> (j < length l)%nat -> nth j (roll o l) d = nth ((j + o) mod length l) l d.
Proof.
  intros Ho Hj. destruct (Nat.eq_dec o (length l)) as [->|NE].
  - unfold roll. rewrite skipn_all, firstn_all. cbn [app]. replace (j + length l)%nat with (j + 1 * length l)%nat by lia. rewrite Nat.mod_add by lia. rewrite Nat.mod_small by lia. reflexivity.
  - rewrite nth_roll by lia. rewrite Nat.add_comm. reflexivity.
Qed.
Lemma rotation_renumbering n o : (o <= n)%nat -> renumbering n (rotation n o).
Proof.
  intros Ho. unfold renumbering.
  assert (E : map (rotation n o) (seq 0 n) = roll o (seq 0 n)).
  { apply (list_eq_nth _ _ O); [rewrite roll_length, map_length; reflexivity|]. intros i Hi. rewrite map_length, seq_length in Hi.
    rewrite nth_map_seq by exact Hi. rewrite nth_roll_le by (rewrite seq_length; assumption). rewrite seq_length, seq_nth by (apply Nat.mod_upper_bound; lia). reflexivity. }
  rewrite E. unfold roll. rewrite <- (firstn_skipn o (seq 0 n)) at 3. apply Permutation_app_comm.
Qed.
Lemma reorder_rotation {A} n o (l : list A) : (o <= n)%nat -> length l = n -> reorder (rotation n o) l = roll o l.
Proof.
  intros Ho L. destruct l as [|a l']; [cbn; unfold roll; rewrite skipn_nil, firstn_nil; reflexivity|]. set (l := a :: l') in *.
  apply (list_eq_nth _ _ a); [rewrite reorder_length, roll_length; reflexivity|]. intros i Hi. rewrite reorder_length, L in Hi.
  rewrite (nth_reorder (rotation n o) n l a i (rotation_renumbering n o Ho) L Hi). rewrite nth_roll_le by (rewrite L; assumption). rewrite L. reflexivity.
Qed.
Lemma offset_le sizes r : (offset sizes r <= list_sum sizes)%nat.
Proof. unfold offset. rewrite <- (firstn_skipn r sizes) at 2. rewrite list_sum_app. lia. Qed.
Lemma list_sum_roll r sizes : list_sum (roll r sizes) = list_sum sizes.
Proof. unfold roll. rewrite <- (firstn_skipn r sizes) at 3. rewrite !list_sum_app. lia. Qed.

Lemma map_const_seq {A} (c : A) a n : map (fun _ => c) (seq a n) = repeat c n.
Proof. revert a; induction n as [|n IH]; intros a; [reflexivity|]. cbn. rewrite IH. reflexivity. Qed.
Lemma spin_rotation sizes r i : (r < length sizes)%nat -> (i < list_sum sizes)%nat ->
  spin_of sizes (rotation (list_sum sizes) (offset sizes r) i) = (spin_of (roll r sizes) i + r) mod length sizes.
Proof.
  intros Hr Hi. set (n := list_sum sizes) in *. set (k := length sizes) in *. set (o := offset sizes r).
  assert (Ho : (o <= n)%nat) by apply offset_le.
  assert (L1 : map (fun i => (spin_of (roll r sizes) i + r) mod k) (seq 0 n) = concat (by_spin (roll r sizes) (fun b _ => (b + r) mod k))).
  { rewrite concat_by_spin, list_sum_roll. reflexivity. }
  assert (L2 : map (fun i => spin_of sizes (rotation n o i)) (seq 0 n) = concat (roll r (by_spin sizes (fun b _ => b)))).
  { rewrite roll_sizes_concat, concat_by_spin. fold n. rewrite <- (map_seq_reorder (spin_of sizes) (rotation n o) n (rotation_renumbering n o Ho)).
    rewrite (reorder_rotation n o _ Ho) by (rewrite map_length, seq_length; reflexivity). f_equal. unfold o, offset.
    rewrite concat_length_sum, <- firstn_map. f_equal. f_equal.
    apply (list_eq_nth _ _ O); [rewrite map_length, by_spin_length; reflexivity|]. intros b Hb.
    rewrite (nth_indep (map (@length nat) _) O (length (@nil nat))) by (rewrite map_length, by_spin_length; exact Hb). rewrite (map_nth (@length nat)).
    rewrite by_spin_nth by exact Hb. rewrite map_length, seq_length. reflexivity. }
  assert (E : by_spin (roll r sizes) (fun b _ => (b + r) mod k) = roll r (by_spin sizes (fun b _ => b))).
  { apply (list_eq_nth _ _ []); [rewrite by_spin_length, !roll_length, by_spin_length; reflexivity|]. intros b Hb. rewrite by_spin_length, roll_length in Hb. fold k in Hb.
    rewrite nth_roll by (rewrite by_spin_length; assumption). rewrite by_spin_length. fold k. rewrite !by_spin_nth by (rewrite ?roll_length; try exact Hb; apply Nat.mod_upper_bound; lia).
    rewrite !map_const_seq. rewrite nth_roll by assumption. fold k. rewrite (Nat.add_comm b r). reflexivity. }
  rewrite <- E, <- L1 in L2. apply (f_equal (fun l => nth i l O)) in L2. rewrite !nth_map_seq in L2 by exact Hi. exact L2.
Qed.

Lemma cyclic_relabel p sizes sp' r x y d d2 : l1_cyclic p = true -> describes (l1_split p) sizes -> describes sp' (rotate_blocks r sizes) ->
  (r < length sizes)%nat -> (0 < list_sum sizes)%nat -> shape2 (list_sum sizes) d x -> shape_opt (list_sum sizes) d2 y ->
  let s := rotation (list_sum sizes) (list_sum (firstn r sizes)) in
  one_electron_layer (with_split sp' p) (reorder s x) (reorder_opt2 s y) = reorder s (one_electron_layer p x y).
Proof.
  intros C D D' Hr N Sx Sy. cbv zeta. fold (offset sizes r). change (rotate_blocks r sizes) with (roll r sizes) in D'.
  set (n := list_sum sizes) in *. set (o := offset sizes r). assert (Ho : (o <= n)%nat) by apply offset_le.
  set (s := rotation n o). pose proof (rotation_renumbering n o Ho) as H. fold s in H. pose proof Sx as (L & F).
  assert (Ln : list_sum (roll r sizes) = n) by apply list_sum_roll.
  assert (CR : forall {A} (l : list A), length l = n -> cut (roll r sizes) (reorder s l) = roll r (cut sizes l)).
  { intros A l Ll. unfold s. rewrite (reorder_rotation n o l Ho Ll). apply cut_roll. exact Ll. }
  assert (G' : good2 n (reorder_opt2 s y)).
  { destruct y as [y|]; [|exact I]. destruct Sy as (Ly & Fy). cbn. split; [unfold reorder2; rewrite map_length, reorder_length; exact Ly|].
    unfold reorder2. apply Forall_map. apply Forall_reorder; [rewrite Ly; exact H|]. eapply Forall_impl; [|exact Fy]. intros q (Lq & _). cbv beta. rewrite reorder_length. exact Lq. }
  rewrite (one_electron_rows (with_split sp' p) (roll r sizes) _ _ D') by (rewrite ?reorder_length, ?Ln; assumption).
  rewrite (one_electron_rows p sizes x y D L (shape3_good n d2 y Sy)). rewrite Ln. fold n. rewrite (map_seq_reorder _ s n H).
  apply map_ext_in. intros i Hi. apply in_seq in Hi. assert (i < n)%nat as Hi' by lia.
  rewrite (nth_reorder s n x [] i H L Hi'). pose proof (spin_rotation sizes r i Hr Hi') as SR. change (spin_of sizes (s i) = (spin_of (roll r sizes) i + r) mod length sizes) in SR. rewrite SR.
  assert (Hb : (spin_of (roll r sizes) i < length sizes)%nat) by (rewrite <- (roll_length r sizes); apply spin_of_lt; rewrite Ln; exact Hi').
  set (b := spin_of (roll r sizes) i) in *. unfold layer_row. cbv zeta. cbn [with_split l1_ndense l1_unmixed l1_bias l1_act l1_skip l1_scale].
  rewrite (width_reorder s n x d H N Sx).
  assert (RR : forall {A} (l : list A), length l = length sizes -> roll b (roll r l) = roll ((b + r) mod length sizes) l).
  { intros A l Ll. rewrite roll_roll by (rewrite Ll; assumption). rewrite Ll. reflexivity. }
  assert (M : mix_row (with_split sp' p) (roll r sizes) (reorder s x) b (nth (s i) x []) = mix_row p sizes x ((b + r) mod length sizes) (nth (s i) x [])).
  { unfold mix_row. cbn [with_split l1_attention]. rewrite (CR _ x L). destruct (l1_attention p) as [a|].
    - rewrite nth_roll by (rewrite cut_length; assumption). rewrite cut_length, (Nat.add_comm r b). reflexivity.
    - unfold mixed_term, spin_means. cbn [with_split l1_ndense l1_mixed l1_cyclic]. rewrite C, (width_reorder s n x d H N Sx), (CR _ x L), <- roll_map.
      rewrite RR by (rewrite map_length, cut_length; reflexivity). reflexivity. }
  rewrite M. destruct y as [y|]; [|reflexivity]. cbn [reorder_opt2 rows_of]. destruct Sy as (Ly & Fy).
  rewrite (width2_reorder s n y n d2 H N (conj Ly Fy) eq_refl). rewrite (nth_reorder2 s n y i H Ly Hi').
  assert (T : two_term (with_split sp' p) (roll r sizes) (width (hd [] y)) b (reorder s (nth (s i) y []))
              = two_term p sizes (width (hd [] y)) ((b + r) mod length sizes) (nth (s i) y [])).
  { unfold two_term. cbv zeta. cbn [with_split l1_ndense l1_2e l1_cyclic]. rewrite C. rewrite CR.
    - rewrite <- roll_map, RR by (rewrite map_length, cut_length; reflexivity). reflexivity.
    - apply (Forall_nth_in _ _ (s i) [] Fy). rewrite Ly. apply renumbering_lt; assumption. }
  rewrite T. reflexivity.
Qed.
