(** The batched determinant function: residual network, sign symmetrisation, even functions. *)
From Coq Require Import Reals List Bool Arith Lia.
From Verif Require Import XReal M_slog M_models M_antisym M_construct M_tensor M_batch P_tab P_batch P_batch2 P_batch3 P_batch4 P_batch5.
Import ListNotations.
Local Open Scope nat_scope.

Lemma bshape_nil_l s : broadcast_shape [] s = Some s.
Proof. destruct s; reflexivity. Qed.
Lemma ones_shape {A} (B : list A) (C : list nat) : length B = length C -> broadcast_shape (map (fun _ => 1) B) C = Some C.
Proof. revert C; induction B as [|a B IH]; intros [|c C] L; try discriminate; [reflexivity|]. cbn [map]. apply bshape_l1. apply IH. cbn in L; lia. Qed.
Lemma ones_index (B : list nat) b : length b = length B -> broadcast_index (map (fun _ => 1) B) b = map (fun _ => 0) b.
Proof. revert b; induction B as [|a B IH]; intros [|c b] L; try discriminate; [reflexivity|]. cbn [map broadcast_index Nat.eqb]. rewrite IH by (cbn in L; lia). reflexivity. Qed.
Lemma ones_ravel (B : list nat) (b : list nat) : ravel (map (fun _ => 1) B) (map (fun _ => 0) b) = 0.
Proof. revert b; induction B as [|a B IH]; intros [|c b]; try reflexivity. cbn [map ravel]. rewrite IH. lia. Qed.
Lemma ones_size (B : list nat) : size_of (map (fun _ => 1) B) = 1.
Proof. induction B as [|a B IH]; [reflexivity|]. cbn [map size_of fold_right] in *. unfold size_of in IH. rewrite IH. reflexivity. Qed.

Section Vectors.
Context (B b : list nat) (Hb : inb b B).
Notation R1 := (R1 B b).

Lemma R1_make n x l (f : nat -> xr) : shape x = n :: B -> l = tab n f -> (forall i, i < n -> entry x (i :: b) = f i) -> R1 x l.
Proof. intros S E F. subst l. split; [rewrite tab_length; exact S|]. rewrite tab_length. apply tab_ext; intros i Hi. symmetry. apply F; exact Hi. Qed.
Lemma R1_tab x l : R1 x l -> exists n f, length l = n /\ shape x = n :: B /\ l = tab n f /\ forall i, i < n -> entry x (i :: b) = f i.
Proof. intros [S E]. exists (length l), (fun i => entry x (i :: b)). auto. Qed.
Lemma R1_entry x l i : R1 x l -> i < length l -> entry x (i :: b) = nth i l (Fin 0).
Proof. intros [S E] Hi. transitivity (nth i (tab (length l) (fun i => entry x (i :: b))) (Fin 0)); [rewrite nth_tab by exact Hi; reflexivity|]. rewrite <- E. reflexivity. Qed.

Lemma map_R1 g x l : R1 x l -> R1 (nd_map g x) (map g l).
Proof.
  intros H. destruct (R1_tab _ _ H) as (n & f & L & S & E & F). apply (R1_make n _ _ (fun i => g (f i))); [exact S|rewrite E, map_tab; reflexivity|].
  intros i Hi. cbn [nd_map entry]. rewrite F by exact Hi. reflexivity.
Qed.
Lemma op_R1 g x y l l' : R1 x l -> R1 y l' -> length l = length l' -> exists z, nd_op g x y = Some z /\ R1 z (zipw g l l').
Proof.
  intros H H' EL. destruct (R1_tab _ _ H) as (n & f & L & S & E & F). destruct (R1_tab _ _ H') as (n' & f' & L' & S' & E' & F').
  assert (QQ : n' = n) by congruence. rewrite QQ in *; clear QQ. unfold nd_op. rewrite S, S', bshape_refl. cbn [bind_opt]. eexists; split; [reflexivity|].
  apply (R1_make n _ _ (fun i => g (f i) (f' i))); [reflexivity|rewrite E, E', zipw_tab; reflexivity|]. intros i Hi. cbn [entry broadcast_index]. rewrite one_or, (bindex_in B b Hb) by exact Hi. rewrite F, F' by exact Hi. reflexivity.
Qed.
Lemma dense_R1 F0 k bias x l : R1 x l -> exists y, nd_dense F0 k bias x = Some y /\ R1 y (dense F0 k bias l).
Proof.
  intros H. destruct (R1_tab _ _ H) as (n & f & L & S & E & F). unfold nd_dense, axis_size. rewrite S. cbn [nth_error bind_opt].
  unfold nd_dot. rewrite S. cbn [matrix_tensor shape]. rewrite Nat.eqb_refl. cbn [bind_opt].
  assert (G : forall o, o < F0 -> xsum (map (fun c => xmul (entry x (c :: b)) (k c o)) (seq 0 n)) = xsum (tab n (fun c => xmul (f c) (k c o)))).
  { intros o Ho. f_equal. fold (tab n (fun c => xmul (entry x (c :: b)) (k c o))). apply tab_ext; intros c Hc. rewrite F by exact Hc. reflexivity. }
  destruct bias as [bs|].
  - unfold nd_op. cbn [shape vector_tensor]. rewrite (bshape_same _ _ _ _ (bshape_nil _)). cbn [bind_opt]. eexists; split; [reflexivity|].
    rewrite E, dense_tab. match goal with |- R1 ?x (tab F0 ?f) => apply (R1_make F0 x (tab F0 f) f eq_refl eq_refl) end. intros o Ho. cbn [entry broadcast_index]. rewrite one_or, (bindex_in B b Hb) by exact Ho. cbn [tl hd nth matrix_tensor entry]. rewrite G by exact Ho. reflexivity.
  - eexists; split; [reflexivity|]. rewrite E, dense_tab. match goal with |- R1 ?x (tab F0 ?f) => apply (R1_make F0 x (tab F0 f) f eq_refl eq_refl) end. intros o Ho. cbn [entry tl hd nth matrix_tensor]. rewrite G by exact Ho. reflexivity.
Qed.
Lemma pick_vectors ts ls : Forall2 R1 ts ls -> forall c i0, c < length (concat ls) -> pick 0 ts c (i0 :: b) = nth c (concat ls) (Fin 0).
Proof.
  induction 1 as [|t l ts ls Ht _ IH]; intros c i0 Hc; [cbn in Hc; lia|]. cbn [pick concat]. rewrite (proj1 Ht). cbn [nth].
  destruct (Nat.ltb_spec c (length l)) as [C|C].
  - rewrite app_nth1 by exact C. cbn [replace_at firstn skipn app]. apply R1_entry; assumption.
  - rewrite app_nth2 by exact C. apply IH. cbn [concat] in Hc. rewrite app_length in Hc. lia.
Qed.
Lemma concat_R1 ts ls : Forall2 R1 ts ls -> ls <> [] -> exists y, nd_concatenate ts 1 = Some y /\ R1 y (concat ls).
Proof.
  intros H NE. destruct H as [|t l ts ls Ht Hs]; [contradiction|]. clear NE. unfold nd_concatenate, axis_size. rewrite (proj1 Ht). cbn [nth_error bind_opt Nat.sub].
  assert (SH : forall y, In y (t :: ts) -> exists n, shape y = n :: B).
  { assert (A : Forall2 R1 (t :: ts) (l :: ls)) by (constructor; assumption). clear -A. induction A as [|y l0 ys l0s Hy _ IH]; intros z; [intros []|]. intros [<-|Hz]; [exists (length l0); apply Hy|apply IH; exact Hz]. }
  match goal with |- context[forallb ?g ?q] => assert (FB : forallb g q = true) end.
  { apply forallb_forall. intros y Hy. destruct (SH y Hy) as [n Sn]. rewrite Sn. cbn [length drop_at firstn skipn app]. rewrite Nat.eqb_refl, list_eqb_refl; reflexivity. }
  rewrite FB. eexists; split; [reflexivity|]. cbn [replace_at firstn skipn app].
  apply (R1_make (length (concat (l :: ls))) _ _ (fun c => nth c (concat (l :: ls)) (Fin 0))).
  - cbn [shape]. f_equal. rewrite length_concat_sum. f_equal. assert (A : Forall2 R1 (t :: ts) (l :: ls)) by (constructor; assumption). clear -A. induction A as [|y l0 ys l0s Hy _ IH]; [reflexivity|]. cbn [map]. rewrite (proj1 Hy). cbn [nth]. f_equal; exact IH.
  - apply list_tab.
  - intros c Hc. cbn [entry nth]. apply pick_vectors; [constructor; assumption|exact Hc].
Qed.

Lemma resnet_layers_R1 ndense act inner : forall x l, R1 x l -> exists y, fold_left (nd_resnet_layer ndense act) inner (Some x) = Some y /\ R1 y (fold_left (resnet_layer ndense act) inner l).
Proof.
  induction inner as [|k inner IH]; intros x l H; [exists x; auto|]. cbn [fold_left]. unfold nd_resnet_layer at 2. cbn [bind_opt].
  destruct (dense_R1 ndense (fst k) (snd k) x l H) as [y [Ey Ry]]. rewrite Ey. cbn [bind_opt]. pose proof (map_R1 act _ _ Ry) as Ra.
  unfold nd_valid_skip. rewrite (proj1 H), (proj1 Ra). unfold resnet_layer at 2. cbv zeta.
  destruct (Nat.eqb_spec (length l) (length (map act (dense ndense (fst k) (snd k) l)))) as [EL|EL].
  - destruct (op_R1 xadd _ _ _ _ Ra H (eq_sym EL)) as [z [Ez Rz]]. rewrite Ez. apply IH. exact Rz.
  - apply IH. exact Ra.
Qed.
Lemma determinant_fn_R1 r dout ts ls : Forall2 R1 ts ls -> ls <> [] -> exists y, nd_determinant_fn r dout ts = Some y /\ R1 y (det_resnet_fn r dout ls).
Proof.
  intros H NE. unfold nd_determinant_fn. destruct (concat_R1 ts ls H NE) as [c [Ec Rc]]. rewrite Ec. cbn [bind_opt]. unfold nd_simple_resnet.
  destruct (resnet_layers_R1 (dr_ndense r) (dr_act r) (dr_inner r) c _ Rc) as [y [Ey Ry]]. rewrite Ey. cbn [bind_opt].
  apply dense_R1. exact Ry.
Qed.
End Vectors.

Lemma det_fn_length r dout ls : length (det_resnet_fn r dout ls) = dout.
Proof. unfold det_resnet_fn, resnet_determinant_fn, simple_resnet, dense. rewrite map_length, seq_length. reflexivity. Qed.

(** Symmetry k of a list of vectors (list model). *)
Definition symmetry (n k : nat) (ls : list vec) : list vec := mapi (fun i l => vscale (Fin (nth k (get_sign_array_1d i (2 ^ n)) 0%R)) l) ls.
Lemma sign_array_length i n : length (get_sign_array_1d i n) = n.
Proof. unfold get_sign_array_1d. rewrite map_length, seq_length. reflexivity. Qed.
Lemma one_symmetry {A} (f : nat -> A -> list A) (ls : list A) k (g : nat -> A -> A) : (forall i a, In a ls -> nth_error (f i a) k = Some (g i a)) ->
  concat (map (fun s => match nth_error s k with Some a => [a] | None => [] end) (mapi f ls)) = mapi g ls.
Proof.
  intros H. unfold mapi, zipw. generalize 0 as i0. revert H. induction ls as [|a ls IH]; intros H i0; [reflexivity|]. cbn [length seq combine map fst snd concat]. rewrite H by (left; reflexivity). cbn [app]. f_equal. apply IH. intros; apply H; right; assumption.
Qed.
Lemma orbit_list (ls : list vec) : get_sign_orbit_for_list (fun s => vscale (Fin s)) ls =
  (tab (2 ^ length ls) (fun k => symmetry (length ls) k ls),
   tab (2 ^ length ls) (fun k => fold_right Rmult 1%R (map (fun i => nth k (get_sign_array_1d i (2 ^ length ls)) 0%R) (seq 0 (length ls))))).
Proof.
  unfold get_sign_orbit_for_list, get_sign_orbit_single. cbv zeta. set (n := length ls). f_equal.
  - apply map_ext_in. intros k Hk. apply in_seq in Hk. unfold symmetry.
    transitivity (concat (map (fun s => match nth_error s k with Some a => [a] | None => [] end) (mapi (fun i xi => map (fun s => vscale (Fin s) xi) (get_sign_array_1d i (2 ^ n))) ls))).
    + f_equal. unfold mapi, zipw. rewrite !map_map. reflexivity.
    + apply one_symmetry. intros i a _. rewrite nth_error_map. rewrite (nth_error_nth' _ 0%R) by (rewrite sign_array_length; lia). reflexivity.
  - apply map_ext_in. intros k Hk. f_equal. unfold mapi, zipw. rewrite map_map. cbn [snd].
    rewrite <- (map_map fst (fun i => nth k (get_sign_array_1d i (2 ^ n)) 0%R)). f_equal. clear. unfold n. generalize 0 as i0. induction ls as [|a ls IH]; intros i0; [reflexivity|]. cbn. f_equal. apply IH.
Qed.

Section Orbit.
Context (B b : list nat) (Hb : inb b B).

Lemma inb_length : length b = length B.
Proof. exact (Forall2_len _ _ _ Hb). Qed.

Lemma orbit_R n i x l : R1 B b x l -> exists u, nd_sign_orbit n i x = Some u /\ shape u = length l :: 2 ^ n :: B /\
  forall k, k < 2 ^ n -> R1 (2 ^ n :: B) (k :: b) u (vscale (Fin (nth k (get_sign_array_1d i (2 ^ n)) 0%R)) l).
Proof.
  intros H. destruct (R1_tab _ _ _ _ H) as (m & f & L & S & E & F). unfold nd_sign_orbit. set (ns := 2 ^ n). rewrite S. cbn [tl]. unfold nd_reshape. cbn [shape vector_tensor].
  assert (SZ : size_of (1 :: ns :: map (fun _ => 1) B) = size_of [ns]). { pose proof (ones_size B) as O. cbn [size_of fold_right] in *. unfold size_of in O. rewrite O. lia. }
  rewrite SZ, Nat.eqb_refl. cbn [bind_opt]. unfold nd_expand_dims. rewrite S. cbn [length Nat.leb bind_opt insert_at firstn skipn app].
  unfold nd_op. cbn [shape]. rewrite (bshape_l1 _ _ _ _ (bshape_r1 _ _ _ _ (ones_shape B B eq_refl))). cbn [bind_opt].
  eexists; split; [reflexivity|]. split; [cbn [shape]; rewrite L; reflexivity|]. intros k Hk.
  apply (R1_make (ns :: B) (k :: b) m _ _ (fun c => xmul (Fin (nth k (get_sign_array_1d i ns) 0%R)) (f c))); [reflexivity|rewrite E; apply map_tab|].
  intros c Hc. cbn [entry broadcast_index Nat.eqb drop_at firstn skipn app]. rewrite !one_or by assumption. rewrite (bindex_in B b Hb), ones_index by apply inb_length. rewrite F by exact Hc.
  cbn [ravel]. rewrite ones_ravel. cbn [unravel vector_tensor entry nth]. replace (0 + 1 * (k + ns * 0)) with k by lia. rewrite Nat.mod_small by exact Hk. reflexivity.
Qed.
Lemma orbit_list_R ts ls : Forall2 (R1 B b) ts ls -> ls <> [] -> exists us, nd_sign_orbit_list ts = Some us /\
  forall k, k < 2 ^ length ls -> Forall2 (R1 (2 ^ length ls :: B) (k :: b)) us (symmetry (length ls) k ls).
Proof.
  intros H NE. unfold nd_sign_orbit_list. assert (LT := Forall2_len _ _ _ H). rewrite LT. destruct (Nat.eqb_spec (length ls) 0) as [Z|_]; [destruct ls; [contradiction|discriminate]|]. cbn [negb check].
  set (n := length ls). clearbody n. clear NE LT. unfold symmetry, mapi, zipw. 
  assert (K : forall i0, exists us, sequence (map (fun p => nd_sign_orbit n (fst p) (snd p)) (combine (seq i0 (length ts)) ts)) = Some us /\
     forall k, k < 2 ^ n -> Forall2 (R1 (2 ^ n :: B) (k :: b)) us (map (fun p => vscale (Fin (nth k (get_sign_array_1d (fst p) (2 ^ n)) 0%R)) (snd p)) (combine (seq i0 (length ls)) ls))).
  { induction H as [|t l ts ls Ht _ IH]; intros i0; [exists []; split; [reflexivity|constructor]|]. destruct (orbit_R n i0 t l Ht) as (u & Eu & _ & Fu). destruct (IH (S i0)) as [us [Es Fs]].
    exists (u :: us). cbn [length seq combine map fst snd sequence]. rewrite Eu, Es. split; [reflexivity|]. intros k Hk. constructor; [apply Fu; exact Hk|apply Fs; exact Hk]. }
  destruct (K 0) as [us [Es Fs]]. exists us. split; [exact Es|exact Fs].
Qed.

(** The arguments of the determinant function at one symmetry. *)
Lemma symmetry_nonempty n k ls : ls <> [] -> symmetry n k ls <> [].
Proof. destruct ls; [contradiction|discriminate]. Qed.

Lemma fn_orbit_R r dout ts ls : Forall2 (R1 B b) ts ls -> ls <> [] ->
  exists us y, nd_sign_orbit_list ts = Some us /\ nd_determinant_fn r dout us = Some y /\ shape y = dout :: 2 ^ length ls :: B /\
    forall k c, k < 2 ^ length ls -> c < dout -> entry y (c :: k :: b) = nth c (det_resnet_fn r dout (symmetry (length ls) k ls)) (Fin 0).
Proof.
  intros H NE. destruct (orbit_list_R ts ls H NE) as [us [Eu Fu]]. exists us.
  assert (P : 0 < 2 ^ length ls) by (apply Nat.neq_0_lt_0, Nat.pow_nonzero; lia).
  assert (K : forall k, k < 2 ^ length ls -> exists y, nd_determinant_fn r dout us = Some y /\ R1 (2 ^ length ls :: B) (k :: b) y (det_resnet_fn r dout (symmetry (length ls) k ls))).
  { intros k Hk. apply determinant_fn_R1; [constructor; assumption|apply Fu; exact Hk|apply symmetry_nonempty; exact NE]. }
  destruct (K 0 P) as [y [Ey Ry]]. exists y. split; [exact Eu|]. split; [exact Ey|]. split; [rewrite (proj1 Ry), det_fn_length; reflexivity|].
  intros k c Hk Hc. destruct (K k Hk) as [y' [Ey' Ry']]. rewrite Ey in Ey'. injection Ey' as <-. apply (R1_entry _ _ _ _ _ Ry'); rewrite det_fn_length; exact Hc.
Qed.

Lemma vsum_tab dout n (f : nat -> vec) : vsum dout (tab n f) = tab dout (fun c => xsum (tab n (fun k => nth c (f k) (Fin 0)))).
Proof. unfold vsum. apply map_ext. intros c. f_equal. apply map_tab. Qed.

Lemma covariant_R r dout ts ls : Forall2 (R1 B b) ts ls -> ls <> [] ->
  exists y, nd_sign_covariant (nd_determinant_fn r dout) ts = Some y /\ R1 B b y (make_array_list_fn_sign_covariant dout (det_resnet_fn r dout) ls).
Proof.
  intros H NE. unfold nd_sign_covariant. destruct (fn_orbit_R r dout ts ls H NE) as (us & y & Eu & Ey & Sy & Fy). rewrite Eu. cbn [bind_opt]. rewrite Ey. cbn [bind_opt].
  rewrite (Forall2_len _ _ _ H). set (n := length ls) in *. unfold nd_multiply_sign, nd_swapaxes. rewrite Sy. cbn [length Nat.leb andb bind_opt]. rewrite swap2.
  unfold nd_op. cbn [shape nd_combined_signs vector_tensor]. rewrite (bshape_same _ _ _ _ (bshape_nil_l _)). cbn [bind_opt shape length Nat.leb andb]. rewrite swap2.
  unfold nd_reduce, axis_size. cbn [shape nth_error bind_opt Nat.sub drop_at firstn skipn app]. eexists; split; [reflexivity|].
  unfold make_array_list_fn_sign_covariant, apply_sign_symmetry_to_fn. rewrite orbit_list. fold n. rewrite map_tab, zipw_tab, vsum_tab.
  match goal with |- R1 B b ?x (tab dout ?f) => apply (R1_make B b dout x (tab dout f) f eq_refl eq_refl) end. intros c Hc. cbn [entry]. f_equal. unfold along.
  apply map_ext_in. intros k Hk. apply in_seq in Hk. cbn [insert_at firstn skipn app]. rewrite swap2. cbn [broadcast_index]. rewrite !one_or by lia. rewrite (bindex_in B b Hb), swap2, Fy by lia.
  cbn [nd_combined_signs vector_tensor entry nth]. unfold vscale. rewrite (nth_map0 _ _ _ (Fin 0)) by (rewrite det_fn_length; exact Hc). reflexivity.
Qed.
Lemma invariant_R r dout ts ls : Forall2 (R1 B b) ts ls -> ls <> [] ->
  exists y, nd_sign_invariant (nd_determinant_fn r dout) ts = Some y /\ R1 B b y (make_array_list_fn_sign_invariant dout (det_resnet_fn r dout) ls).
Proof.
  intros H NE. unfold nd_sign_invariant. destruct (fn_orbit_R r dout ts ls H NE) as (us & y & Eu & Ey & Sy & Fy). rewrite Eu. cbn [bind_opt]. rewrite Ey. cbn [bind_opt].
  set (n := length ls) in *. unfold nd_reduce, axis_size. rewrite Sy. cbn [shape nth_error bind_opt Nat.sub drop_at firstn skipn app]. eexists; split; [reflexivity|].
  unfold make_array_list_fn_sign_invariant, apply_sign_symmetry_to_fn. rewrite orbit_list. fold n. rewrite map_tab, zipw_tab, vsum_tab.
  match goal with |- R1 B b ?x (tab dout ?f) => apply (R1_make B b dout x (tab dout f) f eq_refl eq_refl) end. intros c Hc. cbn [entry]. f_equal. unfold along.
  apply map_ext_in. intros k Hk. apply in_seq in Hk. cbn [insert_at firstn skipn app]. apply Fy; lia.
Qed.
Lemma invariant_length dout fn ls : length (make_array_list_fn_sign_invariant dout fn ls) = dout.
Proof. unfold make_array_list_fn_sign_invariant, apply_sign_symmetry_to_fn. rewrite orbit_list. unfold vsum. rewrite map_length, seq_length. reflexivity. Qed.
End Orbit.
