(** Batched arrays against the one-walker models: one relation per number of trailing axes. *)
From Coq Require Import Reals List Bool Arith Lia.
From Verif Require Import XReal M_slog M_models M_antisym M_construct M_tensor M_batch P_tab.
Import ListNotations.

(** [b] is a position in a batch of shape [B]. *)
Definition inb (b B : list nat) : Prop := Forall2 lt b B.

Lemma one_or (a k : nat) : k < a -> (if Nat.eqb a 1 then 0 else k) = k.
Proof. intros H; destruct (Nat.eqb_spec a 1); lia. Qed.
Lemma bindex_in s : forall i, inb i s -> broadcast_index s i = i.
Proof. induction s as [|a s IH]; intros i H; inversion H; subst; [reflexivity|]. cbn [broadcast_index]. rewrite one_or by assumption. f_equal; apply IH; assumption. Qed.
Lemma bshape_refl s : broadcast_shape s s = Some s.
Proof. induction s as [|a s IH]; [reflexivity|]. cbn [broadcast_shape]. rewrite IH; cbn [bind_opt]. rewrite Nat.eqb_refl; reflexivity. Qed.
Lemma bshape_nil s : broadcast_shape s [] = Some s.
Proof. destruct s; reflexivity. Qed.
Lemma bshape_cons a c s t r : broadcast_shape s t = Some r ->
  broadcast_shape (a :: s) (c :: t) = if Nat.eqb a c then Some (a :: r) else if Nat.eqb a 1 then Some (c :: r) else if Nat.eqb c 1 then Some (a :: r) else None.
Proof. intros E; cbn [broadcast_shape]; rewrite E; reflexivity. Qed.
Lemma bshape_same a s t r : broadcast_shape s t = Some r -> broadcast_shape (a :: s) (a :: t) = Some (a :: r).
Proof. intros E; rewrite (bshape_cons _ _ _ _ _ E), Nat.eqb_refl; reflexivity. Qed.
Lemma bshape_l1 c s t r : broadcast_shape s t = Some r -> broadcast_shape (1 :: s) (c :: t) = Some (c :: r).
Proof. intros E; rewrite (bshape_cons _ _ _ _ _ E). destruct (Nat.eqb_spec 1 c); subst; reflexivity. Qed.
Lemma bshape_r1 a s t r : broadcast_shape s t = Some r -> broadcast_shape (a :: s) (1 :: t) = Some (a :: r).
Proof. intros E; rewrite (bshape_cons _ _ _ _ _ E). destruct (Nat.eqb_spec a 1); subst; reflexivity. Qed.
Lemma size_pos B b : inb b B -> size_of B <> 0.
Proof. induction 1; cbn; [lia|]. apply Nat.neq_mul_0; split; [lia|assumption]. Qed.
Lemma unravel_ravel B : forall b, inb b B -> unravel B (ravel B b) = b.
Proof.
  induction B as [|n B IH]; intros b H; inversion H as [|k ? b' ? Hk Hb]; subst; [reflexivity|].
  cbn [ravel unravel]. replace (k + n * ravel B b') with (k + ravel B b' * n) by lia.
  rewrite Nat.mod_add, Nat.div_add by lia. rewrite Nat.mod_small, Nat.div_small by assumption. cbn. f_equal; apply IH; assumption.
Qed.

(** Exceptions correspond, results are related. *)
Definition orel {A C} (R : A -> C -> Prop) (a : option A) (c : option C) : Prop :=
  match a, c with Some x, Some y => R x y | None, None => True | _, _ => False end.
Lemma orel_bind {A C A' C'} (R : A -> C -> Prop) (R' : A' -> C' -> Prop) a c f g :
  orel R a c -> (forall x y, R x y -> orel R' (f x) (g y)) -> orel R' (bind_opt a f) (bind_opt c g).
Proof. destruct a, c; cbn; try contradiction; auto. Qed.
Lemma orel_sequence {A C} (R : A -> C -> Prop) l m : Forall2 (fun a c => orel R a (Some c)) l m -> exists l', sequence l = Some l' /\ Forall2 R l' m.
Proof.
  induction 1 as [|a c l m H _ [l' [E F]]]; [exists []; split; [reflexivity|constructor]|].
  destruct a as [x|]; [|contradiction]. exists (x :: l'); cbn; rewrite E; split; [reflexivity|constructor; assumption].
Qed.

Section Batch.
Context (B b : list nat) (Hb : inb b B).

(** The array has trailing axis / axes with the given contents at batch position [b]. *)
Definition R1 (x : tensor) (l : vec) : Prop :=
  shape x = length l :: B /\ l = tab (length l) (fun i => entry x (i :: b)).
Definition R2 (m : nat) (x : tensor) (l : arr2) : Prop :=
  shape x = m :: length l :: B /\ l = tab (length l) (fun i => tab m (fun j => entry x (j :: i :: b))).
Definition R3 (n m : nat) (x : tensor) (l : arr3) : Prop :=
  shape x = m :: n :: length l :: B /\ l = tab (length l) (fun i => tab n (fun j => tab m (fun k => entry x (k :: j :: i :: b)))).

Lemma R2_make m n x l (f : nat -> nat -> xr) : shape x = m :: n :: B -> l = tab n (fun i => tab m (f i)) ->
  (forall i j, i < n -> j < m -> entry x (j :: i :: b) = f i j) -> R2 m x l.
Proof.
  intros S E H. assert (L : length l = n) by (rewrite E; apply tab_length).
  split; [rewrite L; exact S|]. rewrite L, E. apply tab_ext; intros i Hi; apply tab_ext; intros j Hj; symmetry; apply H; assumption.
Qed.
Lemma R3_make n m k x l (f : nat -> nat -> nat -> xr) : shape x = m :: n :: k :: B -> l = tab k (fun i => tab n (fun j => tab m (f i j))) ->
  (forall i j c, i < k -> j < n -> c < m -> entry x (c :: j :: i :: b) = f i j c) -> R3 n m x l.
Proof.
  intros S E H. assert (L : length l = k) by (rewrite E; apply tab_length).
  split; [rewrite L; exact S|]. rewrite L, E. apply tab_ext; intros i Hi; apply tab_ext; intros j Hj; apply tab_ext; intros c Hc; symmetry; apply H; assumption.
Qed.
(** Destructuring: a related list is a table. *)
Lemma R2_tab m x l : R2 m x l -> exists n f, length l = n /\ shape x = m :: n :: B /\ l = tab n (fun i => tab m (f i)) /\
  (forall i j, i < n -> j < m -> entry x (j :: i :: b) = f i j).
Proof. intros [S E]. exists (length l), (fun i j => entry x (j :: i :: b)); auto. Qed.
Lemma R3_tab n m x l : R3 n m x l -> exists k f, length l = k /\ shape x = m :: n :: k :: B /\ l = tab k (fun i => tab n (fun j => tab m (f i j))) /\
  (forall i j c, i < k -> j < n -> c < m -> entry x (c :: j :: i :: b) = f i j c).
Proof. intros [S E]. exists (length l), (fun i j c => entry x (c :: j :: i :: b)); auto. Qed.

Lemma R2_width m x l : R2 m x l -> 0 < length l -> width l = m.
Proof. intros [S E] H. rewrite E. unfold width. rewrite hd_tab by exact H. apply tab_length. Qed.

(** Elementwise. *)
Lemma map_R2 g m x l : R2 m x l -> R2 m (nd_map g x) (map (map g) l).
Proof.
  intros H. destruct (R2_tab _ _ _ H) as (n & f & L & S & E & F).
  apply (R2_make m n _ _ (fun i j => g (f i j))); [exact S| |].
  - rewrite E, map_tab; apply tab_ext; intros; apply map_tab.
  - intros i j Hi Hj; cbn; rewrite F by assumption; reflexivity.
Qed.
Lemma map_R3 g n m x l : R3 n m x l -> R3 n m (nd_map g x) (map (map (map g)) l).
Proof.
  intros H. destruct (R3_tab _ _ _ _ H) as (k & f & L & S & E & F).
  apply (R3_make n m k _ _ (fun i j c => g (f i j c))); [exact S| |].
  - rewrite E, map_tab; apply tab_ext; intros; rewrite map_tab; apply tab_ext; intros; apply map_tab.
  - intros i j c Hi Hj Hc; cbn; rewrite F by assumption; reflexivity.
Qed.

Lemma bB : broadcast_index B b = b.
Proof. apply bindex_in; exact Hb. Qed.
Lemma bBB : broadcast_shape B B = Some B.
Proof. apply bshape_refl. Qed.

(** Entrywise operations on arrays of the same shape. *)
Lemma op_R2 g m x y l l' : R2 m x l -> R2 m y l' -> length l = length l' ->
  exists z, nd_op g x y = Some z /\ R2 m z (zipw (zipw g) l l').
Proof.
  intros H H' EL. destruct (R2_tab _ _ _ H) as (n & f & L & S & E & F). destruct (R2_tab _ _ _ H') as (n' & f' & L' & S' & E' & F').
  assert (QQ : n' = n) by congruence; rewrite QQ in *; clear QQ.
  unfold nd_op. rewrite S, S'. rewrite bshape_refl; cbn [bind_opt]. eexists; split; [reflexivity|].
  apply (R2_make m n _ _ (fun i j => g (f i j) (f' i j))); [reflexivity| |].
  - rewrite E, E', zipw_tab; apply tab_ext; intros; apply zipw_tab.
  - intros i j Hi Hj; cbn [entry broadcast_index]. rewrite !one_or, bB by assumption. rewrite F, F' by assumption; reflexivity.
Qed.
Lemma op_R3 g n m x y l l' : R3 n m x l -> R3 n m y l' -> length l = length l' ->
  exists z, nd_op g x y = Some z /\ R3 n m z (zipw (zipw (zipw g)) l l').
Proof.
  intros H H' EL. destruct (R3_tab _ _ _ _ H) as (k & f & L & S & E & F). destruct (R3_tab _ _ _ _ H') as (k' & f' & L' & S' & E' & F').
  assert (QQ : k' = k) by congruence; rewrite QQ in *; clear QQ.
  unfold nd_op. rewrite S, S', bshape_refl; cbn [bind_opt]. eexists; split; [reflexivity|].
  apply (R3_make n m k _ _ (fun i j c => g (f i j c) (f' i j c))); [reflexivity| |].
  - rewrite E, E', zipw_tab; apply tab_ext; intros; rewrite zipw_tab; apply tab_ext; intros; apply zipw_tab.
  - intros i j c Hi Hj Hc; cbn [entry broadcast_index]. rewrite !one_or, bB by assumption. rewrite F, F' by assumption; reflexivity.
Qed.
(** ... with a one-row array on the right. *)
Lemma op_row_R2 m x y l r : R2 m x l -> R2 m y [r] ->
  exists z, nd_op xadd x y = Some z /\ R2 m z (add_rows l [r]).
Proof.
  intros H H'. destruct (R2_tab _ _ _ H) as (n & f & L & S & E & F). destruct H' as [S' E'].
  cbn [length] in S', E'. rewrite tab_1 in E'. injection E' as E'.
  unfold nd_op. rewrite S, S'. rewrite (bshape_same m _ _ _ (bshape_r1 n _ _ _ bBB)); cbn [bind_opt].
  eexists; split; [reflexivity|].
  apply (R2_make m n _ _ (fun i j => xadd (f i j) (entry y (j :: 0 :: b)))); [reflexivity| |].
  - unfold add_rows. rewrite L. cbn [length]. destruct (Nat.eqb_spec n 1) as [->|N].
    + rewrite E, E', !tab_1. unfold zipw; cbn [combine map fst snd]. f_equal. unfold vadd. apply zipw_tab.
    + rewrite Nat.eqb_refl. cbn [hd]. rewrite E, map_tab. apply tab_ext; intros i Hi. unfold vadd. rewrite E'. apply zipw_tab.
  - intros i j Hi Hj; cbn [entry broadcast_index]. rewrite bB, !one_or by assumption. cbn [Nat.eqb]. rewrite F by assumption; reflexivity.
Qed.

(** Dense layers. *)
Lemma dense_R2 F0 k bias m x l : R2 m x l -> exists y, nd_dense F0 k bias x = Some y /\ R2 F0 y (map (dense F0 k bias) l).
Proof.
  intros H. destruct (R2_tab _ _ _ H) as (n & f & L & S & E & F).
  unfold nd_dense, axis_size, nd_dot. rewrite S. cbn [nth_error bind_opt matrix_tensor shape]. rewrite Nat.eqb_refl. cbn [bind_opt].
  destruct bias as [bi|]; cbn [bind_opt].
  - unfold nd_op. cbn [shape vector_tensor]. rewrite (bshape_same F0 _ _ _ (bshape_nil _)). cbn [bind_opt]. eexists; split; [reflexivity|].
    apply (R2_make F0 n _ _ (fun i o => let y := xsum (tab m (fun c => xmul (f i c) (k c o))) in match Some bi with None => y | Some b => xadd y (b o) end)); [reflexivity| |].
    + rewrite E, map_tab. apply tab_ext; intros i Hi. apply dense_tab.
    + intros i j Hi Hj. cbn [entry broadcast_index tl hd nth]. rewrite !one_or, bB by assumption. cbv zeta. f_equal. f_equal.
      apply tab_ext; intros c Hc. rewrite F by assumption; reflexivity.
  - eexists; split; [reflexivity|].
    apply (R2_make F0 n _ _ (fun i o => let y := xsum (tab m (fun c => xmul (f i c) (k c o))) in match @None (nat -> xr) with None => y | Some b => xadd y (b o) end)); [reflexivity| |].
    + rewrite E, map_tab. apply tab_ext; intros i Hi. apply dense_tab.
    + intros i j Hi Hj. cbn [entry tl hd nth]. cbv zeta. f_equal.
      apply tab_ext; intros c Hc. rewrite F by assumption; reflexivity.
Qed.
Lemma dense_R3 F0 k bias n m x l : R3 n m x l -> exists y, nd_dense F0 k bias x = Some y /\ R3 n F0 y (map (map (dense F0 k bias)) l).
Proof.
  intros H. destruct (R3_tab _ _ _ _ H) as (q & f & L & S & E & F).
  unfold nd_dense, axis_size, nd_dot. rewrite S. cbn [nth_error bind_opt matrix_tensor shape]. rewrite Nat.eqb_refl. cbn [bind_opt].
  destruct bias as [bi|]; cbn [bind_opt].
  - unfold nd_op. cbn [shape vector_tensor]. rewrite (bshape_same F0 _ _ _ (bshape_nil _)). cbn [bind_opt]. eexists; split; [reflexivity|].
    apply (R3_make n F0 q _ _ (fun i j o => let y := xsum (tab m (fun c => xmul (f i j c) (k c o))) in match Some bi with None => y | Some b => xadd y (b o) end)); [reflexivity| |].
    + rewrite E, map_tab. apply tab_ext; intros i Hi. rewrite map_tab. apply tab_ext; intros j Hj. apply dense_tab.
    + intros i j c Hi Hj Hc. cbn [entry broadcast_index tl hd nth]. rewrite !one_or, bB by assumption. cbv zeta. f_equal. f_equal.
      apply tab_ext; intros u Hu. rewrite F by assumption; reflexivity.
  - eexists; split; [reflexivity|].
    apply (R3_make n F0 q _ _ (fun i j o => let y := xsum (tab m (fun c => xmul (f i j c) (k c o))) in match @None (nat -> xr) with None => y | Some b => xadd y (b o) end)); [reflexivity| |].
    + rewrite E, map_tab. apply tab_ext; intros i Hi. rewrite map_tab. apply tab_ext; intros j Hj. apply dense_tab.
    + intros i j c Hi Hj Hc. cbn [entry tl hd nth]. cbv zeta. f_equal.
      apply tab_ext; intros u Hu. rewrite F by assumption; reflexivity.
Qed.

(** Displacements. *)
Lemma displacements_ions d x l ions : R2 d x l -> (forall v, In v ions -> length v = d) ->
  exists y, nd_displacements x (ion_tensor d ions) = Some y /\ R3 (length ions) d y (displacements l ions).
Proof.
  intros H W. destruct (R2_tab _ _ _ H) as (n & f & L & S & E & F).
  unfold nd_displacements, nd_expand_dims. rewrite S. cbn [length Nat.leb bind_opt ion_tensor matrix_tensor shape insert_at firstn skipn app].
  unfold nd_op. cbn [shape].
  rewrite (bshape_same d _ _ _ (bshape_l1 (length ions) _ _ _ (bshape_r1 n _ _ _ (bshape_nil B)))). cbn [bind_opt].
  eexists; split; [reflexivity|].
  apply (R3_make (length ions) d n _ _ (fun i j c => xsub (f i c) (nth c (nth j ions []) (Fin 0)))); [reflexivity| |].
  - unfold displacements. rewrite E, map_tab. apply tab_ext; intros i Hi.
    rewrite (list_tab ions []) at 1. rewrite map_tab. apply tab_ext; intros j Hj.
    assert (Lj : length (nth j ions []) = d) by (apply W, nth_In; exact Hj).
    rewrite (list_tab (nth j ions []) (Fin 0)) at 1. rewrite Lj. apply zipw_tab.
  - intros i j c Hi Hj Hc. cbn [entry broadcast_index drop_at firstn skipn app nth]. rewrite !one_or, bB by assumption. cbn [Nat.eqb]. rewrite F by assumption. reflexivity.
Qed.
Lemma displacements_self d x l : R2 d x l ->
  exists y, nd_displacements x x = Some y /\ R3 (length l) d y (displacements l l).
Proof.
  intros H. destruct (R2_tab _ _ _ H) as (n & f & L & S & E & F).
  unfold nd_displacements, nd_expand_dims. rewrite S. cbn [length Nat.leb bind_opt shape insert_at firstn skipn app].
  unfold nd_op. cbn [shape].
  rewrite (bshape_same d _ _ _ (bshape_l1 n _ _ _ (bshape_r1 n _ _ _ bBB))). cbn [bind_opt].
  eexists; split; [reflexivity|]. rewrite L.
  apply (R3_make n d n _ _ (fun i j c => xsub (f i c) (f j c))); [reflexivity| |].
  - unfold displacements. rewrite E, map_tab. apply tab_ext; intros i Hi.
    rewrite map_tab. apply tab_ext; intros j Hj. apply zipw_tab.
  - intros i j c Hi Hj Hc. cbn [entry broadcast_index drop_at firstn skipn app nth]. rewrite !one_or, bB by assumption. cbn [Nat.eqb]. rewrite !F by assumption. reflexivity.
Qed.

(** Norms along the last axis. *)
Lemma norm_keep_R3 n m x l : R3 n m x l -> exists y, nd_reduce norm x 1 true = Some y /\ R3 n 1 y (map (map (fun v => [norm v])) l).
Proof.
  intros H. destruct (R3_tab _ _ _ _ H) as (k & f & L & S & E & F).
  unfold nd_reduce, axis_size. rewrite S. cbn [nth_error bind_opt]. eexists; split; [reflexivity|].
  cbn [Nat.sub replace_at firstn skipn app].
  apply (R3_make n 1 k _ _ (fun i j _ => norm (tab m (f i j)))); [reflexivity| |].
  - rewrite E, map_tab; apply tab_ext; intros i Hi; rewrite map_tab; apply tab_ext; intros j Hj; reflexivity.
  - intros i j c Hi Hj Hc. cbn [entry drop_at firstn skipn app]. f_equal. unfold along. apply tab_ext; intros u Hu. cbn [insert_at firstn skipn app]. apply F; assumption.
Qed.

(** Concatenation of two arrays along the last axis. *)
Lemma concat2_R3 n m1 m2 x y l l' : R3 n m1 x l -> R3 n m2 y l' -> length l = length l' ->
  exists z, nd_concatenate [x; y] 1 = Some z /\ R3 n (m1 + m2) z (zipw (zipw (@app xr)) l l').
Proof.
  intros H H' EL. destruct (R3_tab _ _ _ _ H) as (k & f & L & S & E & F). destruct (R3_tab _ _ _ _ H') as (k' & f' & L' & S' & E' & F').
  assert (QQ : k' = k) by congruence; rewrite QQ in *; clear QQ.
  unfold nd_concatenate, axis_size. cbn [Nat.sub forallb map list_sum fold_right]. rewrite S, S'.
  cbn [nth_error bind_opt length drop_at firstn skipn app nth replace_at]. rewrite !Nat.eqb_refl.
  assert (EQ : list_eqb (n :: k :: B) (n :: k :: B) = true) by (unfold list_eqb; destruct list_eq_dec; congruence).
  rewrite EQ. cbn [andb]. eexists; split; [reflexivity|].
  apply (R3_make n (m1 + m2) k _ _ (fun i j c => if Nat.ltb c m1 then f i j c else f' i j (c - m1))).
  - cbn [shape]. f_equal. lia.
  - rewrite E, E', zipw_tab. apply tab_ext; intros i Hi. rewrite zipw_tab. apply tab_ext; intros j Hj. apply tab_app.
  - intros i j c Hi Hj Hc. cbn [entry pick nth]. rewrite S, S'. cbn [nth replace_at firstn skipn app].
    destruct (Nat.ltb_spec c m1); [apply F; assumption|].
    destruct (Nat.ltb_spec (c - m1) m2); [apply F'; assumption|lia].
Qed.

(** Flattening the last two axes. *)
Lemma flatten_R3 n m x l : R3 n m x l -> 0 < length l ->
  exists y, nd_flatten_last x 2 = Some y /\ R2 (n * m) y (map (@concat xr) l).
Proof.
  intros H Hl. destruct (R3_tab _ _ _ _ H) as (k & f & L & S & E & F).
  unfold nd_flatten_last. rewrite S. cbn [skipn]. assert (Z : size_of (k :: B) <> 0) by (apply (size_pos _ (0 :: b)); constructor; [lia|exact Hb]).
  destruct (Nat.eqb_spec (size_of (k :: B)) 0) as [Z'|_]; [contradiction|].
  assert (ES : size_of (m :: n :: k :: B) / size_of (k :: B) = n * m).
  { cbn [size_of fold_right] in *. replace (m * (n * (k * fold_right Nat.mul 1 B))) with ((n * m) * (k * fold_right Nat.mul 1 B)) by ring. apply Nat.div_mul; exact Z. }
  rewrite ES. unfold nd_reshape. rewrite S.
  assert (EP : size_of (n * m :: k :: B) = size_of (m :: n :: k :: B)) by (cbn [size_of fold_right]; ring).
  rewrite EP, Nat.eqb_refl. eexists; split; [reflexivity|].
  apply (R2_make (n * m) k _ _ (fun i j => f i (j / m) (j mod m))); [reflexivity| |].
  - rewrite E, map_tab. apply tab_ext; intros i Hi. apply concat_tab.
  - intros i j Hi Hj. cbn [entry ravel]. assert (m <> 0) by (intros ->; lia).
    set (v := i + k * ravel B b). cbn [unravel].
    replace (j + n * m * v) with (j + (n * v) * m) by ring.
    rewrite Nat.mod_add, Nat.div_add by assumption.
    assert (j / m < n) by (apply Nat.div_lt_upper_bound; lia).
    assert (Hn : n <> 0) by lia.
    replace (j / m + n * v) with (j / m + v * n) by ring.
    rewrite Nat.mod_add, Nat.div_add by exact Hn. rewrite (Nat.mod_small (j / m)), (Nat.div_small (j / m) n) by assumption.
    cbn [Nat.add]. change (v mod k :: unravel B (v / k)) with (unravel (k :: B) v).
    replace (unravel (k :: B) v) with (i :: b).
    2:{ symmetry; unfold v. change (i + k * ravel B b) with (ravel (k :: B) (i :: b)). apply unravel_ravel. constructor; [exact Hi|exact Hb]. }
    apply F; [exact Hi|assumption|apply Nat.mod_upper_bound; assumption].
Qed.

(** The electron-electron norms. *)
Lemma ee_norm_R3 n m x l s : R3 n m x l -> length l = n ->
  exists y, nd_ee_norm_with_safe_diag x s = Some y /\ R3 n 1 y (map (map (fun v => [v])) (compute_ee_norm_with_safe_diag l s)).
Proof.
  intros H EL. destruct (R3_tab _ _ _ _ H) as (k & f & L & S & E & F). assert (QQ : k = n) by congruence; rewrite QQ in *; clear QQ.
  unfold nd_ee_norm_with_safe_diag, axis_size. rewrite S. cbn [nth_error bind_opt].
  unfold nd_expand_dims at 1. cbn [matrix_tensor shape length Nat.leb bind_opt insert_at firstn skipn app].
  unfold nd_op at 1. rewrite S. cbn [shape].
  rewrite (bshape_r1 m _ _ _ (bshape_same n _ _ _ (bshape_same n _ _ _ (bshape_nil B)))). cbn [bind_opt].
  unfold nd_reduce, axis_size. cbn [shape nth_error bind_opt Nat.sub replace_at firstn skipn app].
  unfold nd_op. cbn [shape nd_map]. rewrite (bshape_same 1 _ _ _ (bshape_same n _ _ _ (bshape_same n _ _ _ (bshape_nil B)))). cbn [bind_opt].
  eexists; split; [reflexivity|].
  apply (R3_make n 1 n _ _ (fun i j _ => xmul (softened s (norm (tab m (fun c => xadd (f i j c) (eye i j))))) (xsub (Fin 1) (eye i j)))); [reflexivity| |].
  - unfold compute_ee_norm_with_safe_diag. rewrite E, mapi_tab, map_tab. apply tab_ext; intros i Hi. rewrite mapi_tab, map_tab. apply tab_ext; intros j Hj.
    rewrite tab_1, map_tab. reflexivity.
  - intros i j c Hi Hj Hc. cbn [entry nd_map broadcast_index drop_at firstn skipn app Nat.eqb nth]. rewrite !one_or, bB by assumption.
    f_equal. f_equal. f_equal. unfold along. apply tab_ext; intros u Hu. cbn [entry insert_at firstn skipn app broadcast_index drop_at nth Nat.eqb].
    rewrite !one_or, bB by assumption. rewrite F by assumption. reflexivity.
Qed.
End Batch.
