(** The batched FermiNet: determinants, sums over determinants, and the whole call. *)
From Coq Require Import Reals List Bool Arith ZArith Lia.
From Verif Require Import XReal M_slog M_models M_antisym M_construct M_tensor M_batch P_tab P_batch P_batch2 P_batch3 P_batch4.
Import ListNotations.
Local Open Scope nat_scope.

(** ** Sizes of splits *)
Fixpoint nondec (a : nat) (idx : list nat) (n : nat) : Prop := match idx with [] => a <= n | i :: r => a <= i /\ nondec i r n end.
Lemma nondec_le a idx n : nondec a idx n -> a <= n.
Proof. revert a; induction idx as [|i r IH]; intros a; cbn; [auto|]. intros [H1 H2]; apply IH in H2; lia. Qed.
Lemma bounds_sum idx : forall a n, nondec a idx n -> list_sum (map snd (bounds n a idx)) = n - a.
Proof.
  induction idx as [|i r IH]; intros a n H; [cbn; lia|]. destruct H as [H1 H2]. cbn [bounds map snd]. change (list_sum (?x :: ?y)) with (x + list_sum y). rewrite IH by exact H2.
  pose proof (nondec_le _ _ _ H2). lia.
Qed.
Lemma to_nats_bounds idx : forall a n, nondec a idx n ->
  to_nats (diffs (Z.of_nat a) (map Z.of_nat idx) ++ [(Z.of_nat n - Z.of_nat (last (a :: idx) O))%Z]) = Some (map snd (bounds n a idx)).
Proof.
  induction idx as [|i r IH]; intros a n H.
  - cbn in H |- *. destruct (Z.ltb_spec (Z.of_nat n - Z.of_nat a) 0); [lia|]. cbn. f_equal. f_equal. lia.
  - destruct H as [H1 H2]. cbn [diffs map app to_nats bounds snd]. destruct (Z.ltb_spec (Z.of_nat i - Z.of_nat a) 0); [lia|].
    change (last (a :: i :: r) 0) with (last (i :: r) 0). rewrite IH by exact H2. cbn [option_map]. f_equal. f_equal. pose proof (nondec_le _ _ _ H2). lia.
Qed.
Lemma equal_bounds q p : forall st n, n = (st + S p) * q -> map snd (bounds n (st * q) (map (fun j => S j * q) (seq st p))) = repeat q (S p).
Proof.
  induction p as [|p IH]; intros st n E.
  - cbn. f_equal. rewrite E. nia.
  - cbn [seq map bounds snd repeat]. f_equal; [rewrite E; nia|]. apply (IH (S st)). rewrite E. f_equal. lia.
Qed.
(** The split points of a list are in order and at most n; then the pieces have the sizes the code computes. *)
Definition ordered_split (s : particle_split) (n : nat) : Prop := match s with Equal _ => True | At idx => nondec 0 idx n end.
Lemma ordered_sizes s n idx : ordered_split s n -> split_points s n = Some idx -> list_sum (map snd (bounds n 0 idx)) = n.
Proof.
  destruct s as [k|l]; cbn [ordered_split split_points].
  - intros _. destruct (Nat.eqb_spec k 0) as [|K]; [discriminate|]. destruct (Nat.eqb_spec (n mod k) 0) as [M|]; [|discriminate]. intros [= <-].
    assert (N : n = k * (n / k)) by (pose proof (Nat.div_mod n k K); lia). set (q := n / k) in *. clearbody q. destruct k as [|p]; [lia|]. replace (S p - 1) with p by lia.
    assert (EB : map snd (bounds n 0 (map (fun j => S j * q) (seq 0 p))) = repeat q (S p)) by (apply (equal_bounds q p 0 n); cbn [Nat.add]; lia). match goal with |- context[bounds n 0 ?l] => change l with (map (fun j => S j * q) (seq 0 p)) end. rewrite EB. rewrite N. clear. generalize (S p) as m0. intros m0. induction m0 as [|m IH]; [reflexivity|]. cbn [repeat]. change (list_sum (?x :: ?y)) with (x + list_sum y). rewrite IH. lia.
  - intros H [= <-]. rewrite bounds_sum by exact H. lia.
Qed.
Lemma ordered_proper s n : ordered_split s n -> proper s n.
Proof. intros H. unfold proper. destruct (split_points s n) as [idx|] eqn:E; [|exact Logic.I]. exact (ordered_sizes s n idx H E). Qed.
Lemma ordered_norbs s n idx norbs : ordered_split s n -> split_points s n = Some idx -> norbitals_per_split false n s = Some norbs -> norbs = map snd (bounds n 0 idx).
Proof.
  unfold norbitals_per_split. destruct s as [k|l]; cbn [ordered_split split_points get_nelec_per_split].
  - intros _. destruct (Nat.eqb_spec k 0) as [|K]; [discriminate|]. destruct (Nat.eqb_spec (n mod k) 0) as [M|]; [|discriminate]. intros [= <-]. cbn [bind_opt].
    assert (N : n = k * (n / k)) by (pose proof (Nat.div_mod n k K); lia). set (q := n / k) in *. clearbody q. destruct k as [|p]; [lia|]. replace (S p - 1) with p by lia.
    assert (EB : map snd (bounds n 0 (map (fun j => S j * q) (seq 0 p))) = repeat q (S p)) by (apply (equal_bounds q p 0 n); cbn [Nat.add]; lia). match goal with |- context[bounds n 0 ?l] => change l with (map (fun j => S j * q) (seq 0 p)) end. rewrite EB. intros E. clear -E. revert norbs E. induction (S p) as [|m IH]; intros norbs E; cbn [repeat to_nats] in *; [injection E as <-; reflexivity|].
    destruct (Z.ltb_spec (Z.of_nat q) 0); [lia|]. destruct (to_nats (repeat (Z.of_nat q) m)) as [t|]; [|discriminate]. cbn in E. injection E as <-. rewrite Nat2Z.id. f_equal. apply IH; reflexivity.
  - intros H [= <-]. destruct l as [|i r]; [discriminate|]. cbn [bind_opt]. intros E. pose proof (to_nats_bounds (i :: r) 0 n H) as T. cbn [diffs map app] in T. rewrite Z.sub_0_r in T.
    change (last (0 :: i :: r) 0) with (last (i :: r) 0) in T. cbn [app] in E. rewrite T in E. injection E as <-. reflexivity.
Qed.

Lemma flat_entry q D B0 b0 j k : inb b0 B0 -> j < q -> k < D ->
  unravel (q * D :: B0) (ravel (q :: D :: B0) (j :: k :: b0)) = (k * q + j) :: b0.
Proof.
  intros Hb Hj Hk. cbn [ravel]. set (v := ravel B0 b0).
  assert (DD : q * D <> 0) by (intros Z; apply Nat.eq_mul_0 in Z; lia).
  assert (LT : k * q + j < q * D) by nia.
  replace (j + q * (k + D * v)) with ((k * q + j) + v * (q * D)) by ring.
  cbn [unravel]. rewrite Nat.mod_add, Nat.div_add by exact DD. rewrite Nat.mod_small, Nat.div_small by exact LT. cbn [Nat.add]. unfold v. rewrite unravel_ravel by exact Hb. reflexivity.
Qed.
Lemma inb_app b B k D : inb b B -> k < D -> inb (b ++ [k]) (B ++ [D]).
Proof. intros H K. apply Forall2_app; [exact H|]. constructor; [exact K|constructor]. Qed.
Lemma bshape_tail B D : broadcast_shape (B ++ [D]) (B ++ [1]) = Some (B ++ [D]).
Proof. induction B as [|a B IH]; cbn [app]; [apply bshape_r1, bshape_nil|apply bshape_same, IH]. Qed.
Lemma bindex_tail B b k : inb b B -> broadcast_index (B ++ [1]) (b ++ [k]) = b ++ [0].
Proof. intros H. induction H as [|i a b B L H IH]; [reflexivity|]. cbn [app broadcast_index]. rewrite one_or, IH by exact L. reflexivity. Qed.

Lemma sequence_all {A C} (f : A -> option C) (g : A -> C) l : (forall a, In a l -> f a = Some (g a)) -> sequence (map f l) = Some (map g l).
Proof. induction l as [|a l IH]; intros H; [reflexivity|]. cbn [map sequence]. rewrite H by (left; reflexivity). rewrite IH by (intros; apply H; right; assumption). reflexivity. Qed.
Lemma nth_map0 {A C} (f : A -> C) l k (d : A) (d' : C) : k < length l -> nth k (map f l) d' = f (nth k l d).
Proof. intros H. rewrite (nth_indep _ d' (f d)) by (rewrite map_length; exact H). apply map_nth. Qed.
Lemma fold_left_ext {A C} (f g : A -> C -> A) l a : (forall x y, f x y = g x y) -> fold_left f l a = fold_left g l a.
Proof. intros H. revert a; induction l as [|c l IH]; intros a; cbn; [reflexivity|]. rewrite H; apply IH. Qed.

Section Batch5.
Context (B b : list nat) (Hb : inb b B).

(** An array (D, ..., n, q) with the given D matrices at batch position [b]. *)
Definition RDet (D q : nat) (y : tensor) (l : list arr2) : Prop :=
  length l = D /\ forall k, k < D -> R2 (B ++ [D]) (b ++ [k]) q y (nth k l []).

(** construct.py 695-724. *)
Lemma reshape_R D q x l : R2 B b (q * D) x l -> D <> 0 ->
  exists y ms, nd_reshape_raw_orbitals D x = Some y /\ reshape_raw_orbitals D l = Some ms /\ RDet D q y ms /\ (forall k, k < D -> length (nth k ms []) = length l).
Proof.
  intros H HD. destruct (R2_tab _ _ _ _ _ H) as (n & f & L & S & E & F).
  unfold nd_reshape_raw_orbitals. rewrite S. destruct (Nat.eqb_spec D 0) as [|_]; [contradiction|]. rewrite Nat.div_mul by exact HD.
  unfold nd_reshape. rewrite S.
  assert (EP : size_of (q :: D :: n :: B) = size_of (q * D :: n :: B)) by (cbn [size_of fold_right]; ring). rewrite EP, Nat.eqb_refl. cbn [bind_opt].
  unfold nd_move_to_front, axis_size. cbn [shape nth_error bind_opt Nat.sub drop_at firstn skipn app].
  set (ms := map (fun k => map (fun row => firstn q (skipn (k * q) row)) l) (seq 0 D)).
  assert (LM : forall k, k < D -> nth k ms [] = tab n (fun i => tab q (fun j => f i (k * q + j)))).
  { intros k Hk. unfold ms. rewrite (nth_map0 _ _ _ 0) by (rewrite seq_length; exact Hk). rewrite seq_nth by exact Hk. cbn [Nat.add]. rewrite E at 1. rewrite map_tab. apply tab_ext; intros i Hi.
    rewrite skipn_tab, firstn_tab. replace (Nat.min q (q * D - k * q)) with q by nia. reflexivity. }
  eexists _, ms. split; [reflexivity|]. split; [|split; [split|]].
  - unfold reshape_raw_orbitals. destruct (Nat.eqb_spec D 0) as [|_]; [contradiction|]. destruct l as [|r0 l0].
    + cbn [width]. rewrite Nat.mod_0_l by exact HD. rewrite Nat.eqb_refl. unfold ms. cbn [map]. reflexivity.
    + rewrite (R2_width B b _ _ _ H) by (cbn; lia). rewrite Nat.mod_mul, Nat.eqb_refl, Nat.div_mul by exact HD. reflexivity.
  - unfold ms. rewrite map_length, seq_length. reflexivity.
  - intros k Hk. rewrite (LM k Hk). apply (R2_make (B ++ [D]) (b ++ [k]) q n _ _ (fun i j => f i (k * q + j))); [reflexivity|reflexivity|].
    intros i j Hi Hj. cbn [entry]. change (j :: i :: b ++ [k]) with ((j :: i :: b) ++ [k]). rewrite last_last, removelast_last. cbn [insert_at firstn skipn app].
    rewrite flat_entry by (try assumption; constructor; assumption). apply F; nia.
  - intros k Hk. rewrite (LM k Hk), tab_length. congruence.
Qed.

Definition ROrbs (D : nat) (ts : list tensor) (ls : list (list arr2)) (qs : list nat) : Prop := Forall2 (fun t lq => RDet D (snd lq) t (fst lq)) ts (combine ls qs) /\ length ls = length qs.

Lemma eval_orbitals_R m s norbs x d rows y q w nion : R2 B b w x rows ->
  match y, q with None, None => True | Some y, Some q => R3 B b nion d y q /\ length q = length rows /\ 0 < nion | _, _ => False end ->
  if Nat.eqb (length norbs) (get_nsplits s) && splittable s (length rows) && negb (Nat.eqb (fn_ndet m) 0)
  then exists ts ls ps, nd_eval_orbitals m s norbs x y = Some ts /\ eval_orbitals m s norbs rows q = Some ls /\ ROrbs (fn_ndet m) ts ls norbs /\
         split s rows = Some ps /\ Forall2 (fun l p => forall k, k < fn_ndet m -> length (nth k l []) = length p) ls ps
  else nd_eval_orbitals m s norbs x y = None /\ eval_orbitals m s norbs rows q = None.
Proof.
  intros H HY. unfold nd_eval_orbitals, eval_orbitals.
  assert (LO : length (ol_splits (orbital_layer_of m s norbs)) = length norbs) by (cbn; apply mapi_length).
  destruct (Nat.eqb_spec (length norbs) (get_nsplits s)) as [N|N]; cbn [andb check].
  2:{ split; [|reflexivity]. unfold nd_orbital_layer, nd_split_dense. rewrite map_length, LO. cbn [orbital_layer_of ol_split]. destruct (Nat.eqb_spec (length norbs) (get_nsplits s)); [contradiction|reflexivity]. }
  destruct (splittable s (length rows)) eqn:SP; cbn [andb check].
  2:{ split; [|reflexivity]. unfold nd_orbital_layer, nd_split_dense. rewrite map_length, LO. cbn [orbital_layer_of ol_split]. rewrite N, Nat.eqb_refl. cbn [check].
      pose proof (split_R2 B b s w x rows H) as Q. rewrite (split_none s rows SP) in Q. destruct (nd_split x s 2); [contradiction|]. reflexivity. }
  destruct (orbitals_R B b Hb (orbital_layer_of m s norbs) w d nion x rows y q H) as (ts & ps & Et & [LL Rt] & Ep & Lp); [rewrite LO; exact N|exact SP|exact HY|].
  rewrite Et. cbn [bind_opt]. cbn [orbital_layer_of ol_split] in Ep. fold (orbital_layer_of m s norbs) in *.
  set (ls0 := ferminet_orbitals (orbital_layer_of m s norbs) rows q) in *. clearbody ls0.
  assert (PSS : ol_splits (orbital_layer_of m s norbs) = mapi (fun i n => set_norb (n * fn_ndet m) (fn_orbitals m i)) norbs) by reflexivity. rewrite PSS in LL, Rt.
  assert (NE : ts <> []). { intros ->. inversion Rt as [Q|]. assert (length ps = 0) by (rewrite <- (map_length (@length vec)), <- Lp; destruct ls0; [reflexivity|]; rewrite mapi_length in LL; destruct norbs; [cbn in LL; lia|cbn in Q; discriminate]). pose proof (split_count _ _ _ Ep). pose proof (splittable_nsplits _ _ SP). lia. }
  destruct (Nat.eqb_spec (fn_ndet m) 0) as [Z|HD]; cbn [negb].
  { split; [|].
    - destruct ts as [|t ts]; [contradiction|]. cbn [map sequence]. unfold nd_reshape_raw_orbitals at 1. rewrite Z. destruct (shape t); reflexivity.
    - assert (length ls0 <> 0). { intros Q. destruct ls0; [|discriminate]. destruct ts; [contradiction|inversion Rt]. }
      destruct ls0 as [|l0 ls0]; [cbn in *; lia|]. cbn [map sequence]. unfold reshape_raw_orbitals at 1. rewrite Z. reflexivity. }
  clear NE SP Et H HY.
  assert (K : forall i0 norbs ts ls0 ps, length ls0 = length norbs -> Forall2 (fun t lp => R2 B b (o_norb (snd lp)) t (fst lp)) ts (combine ls0 (map (fun q0 => set_norb (snd q0 * fn_ndet m) (fn_orbitals m (fst q0))) (combine (seq i0 (length norbs)) norbs))) ->
     map (@length vec) ls0 = map (@length vec) ps ->
     exists ts' ls, sequence (map (nd_reshape_raw_orbitals (fn_ndet m)) ts) = Some ts' /\ sequence (map (reshape_raw_orbitals (fn_ndet m)) ls0) = Some ls /\ ROrbs (fn_ndet m) ts' ls norbs /\
       Forall2 (fun l p => forall k, k < fn_ndet m -> length (nth k l []) = length p) ls ps).
  { clear -Hb HD. intros i0 norbs. revert i0. induction norbs as [|n norbs IH]; intros i0 ts ls0 ps LL Rt Lp.
    - destruct ls0; [|discriminate]. inversion Rt; subst. destruct ps; [|discriminate]. exists [], []. repeat split; constructor.
    - destruct ls0 as [|l0 ls0]; [discriminate|]. cbn [length seq combine map fst snd] in Rt. inversion Rt as [|t ? ts0 ? Ht Hts]; subst. destruct ps as [|p ps]; [discriminate|]. cbn [map] in Lp. injection Lp as Lp1 Lp2.
      cbn [o_norb set_norb fst snd] in Ht. destruct (reshape_R _ _ _ _ Ht HD) as (y & ms & Ey & Em & Ry & Ly).
      destruct (IH (S i0) ts0 ls0 ps) as (ts' & ls & E1 & E2 & [R L] & F); [cbn in LL; lia|exact Hts|exact Lp2|].
      exists (y :: ts'), (ms :: ls). cbn [map sequence]. rewrite Ey, Em, E1, E2. split; [reflexivity|]. split; [reflexivity|]. split; [split|].
      + cbn [combine]. constructor; [exact Ry|exact R].
      + cbn [length]. rewrite L. reflexivity.
      + constructor; [|exact F]. intros k Hk. rewrite Ly by exact Hk. congruence. }
  destruct (K 0 norbs ts ls0 ps) as (ts' & ls & E1 & E2 & R & F); [rewrite mapi_length in LL; exact LL|exact Rt|exact Lp|].
  exists ts', ls, ps. auto.
Qed.

(** ** Determinants *)
(** Sign and log arrays (D, ...) with the given D values at batch position [b]. *)
Definition RSl (D : nat) (x : tensor * tensor) (vs : list slog) : Prop :=
  shape (fst x) = B ++ [D] /\ shape (snd x) = B ++ [D] /\ length vs = D /\
  forall k, k < D -> nth k vs (NaN, NaN) = (entry (fst x) (b ++ [k]), entry (snd x) (b ++ [k])).

Lemma linalg_square q (l : arr2) : length l = q -> (forall r, In r l -> length r = q) -> exists v, linalg_slogdet l = Some v.
Proof.
  intros L W. unfold linalg_slogdet, linalg_det. replace (is_square l) with true; [eexists; reflexivity|]. symmetry. unfold is_square. apply forallb_forall. intros r Hr. rewrite (W r Hr), L, Nat.eqb_refl. reflexivity.
Qed.
Lemma slogdet_R D q y l : RDet D q y l -> D <> 0 -> (forall k, k < D -> length (nth k l []) = q) ->
  exists x vs, nd_slogdet y = Some x /\ RSl D x vs /\ forall k, k < D -> linalg_slogdet (nth k l []) = Some (nth k vs (NaN, NaN)).
Proof.
  intros [L H] HD SQ. destruct (H 0 ltac:(lia)) as [S0 _]. rewrite SQ in S0 by lia.
  unfold nd_slogdet. rewrite S0, Nat.eqb_refl.
  set (value := fun i => match linalg_slogdet (matrix_at y q q i) with Some v => v | None => (NaN, NaN) end).
  exists ({| shape := B ++ [D]; entry := fun i => fst (value i) |}, {| shape := B ++ [D]; entry := fun i => snd (value i) |}), (map (fun k => value (b ++ [k])) (seq 0 D)).
  split; [reflexivity|]. split.
  - split; [reflexivity|]. split; [reflexivity|]. split; [rewrite map_length, seq_length; reflexivity|]. intros k Hk. rewrite (nth_map0 _ _ _ 0) by (rewrite seq_length; exact Hk). rewrite seq_nth by exact Hk. cbn [fst snd entry Nat.add]. destruct (value (b ++ [k])); reflexivity.
  - intros k Hk. rewrite (nth_map0 _ _ _ 0) by (rewrite seq_length; exact Hk). rewrite seq_nth by exact Hk. cbn [Nat.add]. unfold value.
    destruct (H k Hk) as [_ E]. rewrite (SQ k Hk) in E. unfold matrix_at.
    replace (map (fun r => map (fun c => entry y (c :: r :: b ++ [k])) (seq 0 q)) (seq 0 q)) with (nth k l []) by exact E.
    destruct (linalg_square q (nth k l [])) as [v Ev]; [exact (SQ k Hk)| |rewrite Ev; reflexivity].
    intros r Hr. exact (R2_row_length _ _ _ _ _ (H k Hk) r Hr).
Qed.

Lemma multiply_R D x y vs ws : RSl D x vs -> RSl D y ws ->
  exists s l, nd_op xmul (fst x) (fst y) = Some s /\ nd_op xadd (snd x) (snd y) = Some l /\ RSl D (s, l) (tab D (fun k => slog_multiply (nth k vs (NaN, NaN)) (nth k ws (NaN, NaN)))).
Proof.
  intros (S1 & S2 & L & F) (T1 & T2 & M & G). unfold nd_op. rewrite S1, S2, T1, T2, bshape_refl. cbn [bind_opt]. do 2 eexists. split; [reflexivity|]. split; [reflexivity|].
  split; [reflexivity|]. split; [reflexivity|]. split; [apply tab_length|]. intros k Hk. rewrite nth_tab by exact Hk. cbn [fst snd entry]. rewrite (bindex_in (B ++ [D])) by (apply inb_app; assumption).
  rewrite F, G by exact Hk. reflexivity.
Qed.

Lemma fold_R D : forall (xs : list (tensor * tensor)) vss x vs, RSl D x vs -> Forall2 (RSl D) xs vss ->
  exists z, fold_left (fun acc b0 => do acc0 <- acc; do s <- nd_op xmul (fst acc0) (fst b0); do l <- nd_op xadd (snd acc0) (snd b0); Some (s, l)) xs (Some x) = Some z /\
    RSl D z (tab D (fun k => fold_left slog_multiply (map (fun v => nth k v (NaN, NaN)) vss) (nth k vs (NaN, NaN)))).
Proof.
  induction xs as [|y xs IH]; intros vss x vs H HF; inversion HF as [|? ws ? vss' Hy Hs]; subst.
  - exists x. split; [reflexivity|]. destruct H as (S1 & S2 & L & F). split; [exact S1|]. split; [exact S2|]. split; [apply tab_length|]. intros k Hk. rewrite nth_tab by exact Hk. cbn. apply F; exact Hk.
  - destruct (multiply_R D x y vs ws H Hy) as (s & l & Es & El & R). cbn [fold_left]. cbn [bind_opt]. rewrite Es, El. cbn [bind_opt].
    destruct (IH vss' (s, l) _ R Hs) as [z [Ez Rz]]. exists z. split; [exact Ez|].
    match goal with |- RSl _ _ ?a => match type of Rz with RSl _ _ ?c => replace a with c; [exact Rz|] end end.
    apply tab_ext; intros k Hk. rewrite nth_tab by exact Hk. reflexivity.
Qed.

(** antisymmetry.py 23-42. *)
Lemma slogdet_product_R D ts ls qs : Forall2 (fun t lq => RDet D (snd lq) t (fst lq) /\ forall k, k < D -> length (nth k (fst lq) []) = snd lq) ts (combine ls qs) ->
  length ls = length qs -> D <> 0 -> ls <> [] ->
  exists z vs, nd_slogdet_product ts = Some z /\ sequence (map slogdet_product (determinant_slices ls D)) = Some vs /\ RSl D z vs.
Proof.
  intros H LQ HD NE.
  assert (K : exists sl vss, sequence (map nd_slogdet ts) = Some sl /\ Forall2 (RSl D) sl vss /\ (forall k, k < D -> sequence (map linalg_slogdet (map (fun o => nth k o []) ls)) = Some (map (fun v => nth k v (NaN, NaN)) vss)) /\ length vss = length ls).
  { clear NE. revert ts qs H LQ. induction ls as [|l ls IH]; intros ts [|q qs] H LQ; try discriminate.
    - inversion H; subst. exists [], []. repeat split; constructor.
    - cbn [combine] in H. inversion H as [|t ? ts' ? [Ht Hq] Hts]; subst. cbn [fst snd] in *. destruct (slogdet_R D q t l Ht HD Hq) as (x & vs & Ex & Rx & Fx).
      destruct (IH ts' qs Hts) as (sl & vss & Es & Rs & Fs & Ls); [cbn in LQ; lia|]. exists (x :: sl), (vs :: vss). cbn [map sequence]. rewrite Ex, Es. split; [reflexivity|]. split; [constructor; assumption|]. split.
      + intros k Hk. rewrite Fx, Fs by exact Hk. reflexivity.
      + cbn [length]. lia. }
  destruct K as (sl & vss & Es & Rs & Fs & Ls). unfold nd_slogdet_product. rewrite Es. cbn [bind_opt].
  destruct vss as [|v vss]; [destruct ls; [contradiction|discriminate]|]. inversion Rs as [|x ? sl' ? Hx Hsl]; subst.
  destruct (fold_R D sl' vss x v Hx Hsl) as [z [Ez Rz]]. exists z, (tab D (fun k => fold_left slog_multiply (map (fun v0 => nth k v0 (NaN, NaN)) vss) (nth k v (NaN, NaN)))).
  split; [exact Ez|]. split; [|exact Rz]. unfold determinant_slices. rewrite map_map. apply sequence_all. intros k Hk. apply in_seq in Hk. unfold slogdet_product. rewrite Fs by lia. reflexivity.
Qed.

(** ** Sum over the determinants *)
Lemma reduce_first_R g x D : shape x = B ++ [D] -> nd_reduce_first g x = Some {| shape := B ++ [1]; entry := fun i => g (tab D (fun c => entry x (removelast i ++ [c]))) |}.
Proof.
  intros S. unfold nd_reduce_first. rewrite S. destruct (B ++ [D]) as [|a s] eqn:E; [destruct B; discriminate|]. rewrite <- E, removelast_last, last_last. reflexivity.
Qed.
Lemma slog_list vs D (x : tensor * tensor) : RSl D x vs -> vs = tab D (fun k => (entry (fst x) (b ++ [k]), entry (snd x) (b ++ [k]))).
Proof. intros (_ & _ & L & F). rewrite (list_tab vs (NaN, NaN)) at 1. rewrite L. apply tab_ext; intros k Hk. apply F; exact Hk. Qed.

Definition RVal (x : tensor * tensor) (v : slog) : Prop := shape (fst x) = B /\ shape (snd x) = B /\ entry (fst x) b = fst v /\ entry (snd x) b = snd v.

Lemma slog_sum_R D x vs : RSl D x vs -> D <> 0 -> exists z v, nd_slog_sum_over_axis x = Some z /\ slog_sum_over_axis vs = Some v /\ RVal z v.
Proof.
  intros H HD. pose proof (slog_list _ _ _ H) as EV. destruct H as (S1 & S2 & L & F).
  unfold nd_slog_sum_over_axis, nd_log_linear_exp, nd_max_first. rewrite S2, last_last. destruct (Nat.eqb_spec D 0) as [|_]; [contradiction|]. cbn [negb check].
  rewrite (reduce_first_R _ _ D S2). cbn [bind_opt]. unfold nd_op at 1. cbn [shape]. rewrite S2, bshape_tail. cbn [bind_opt].
  unfold nd_op at 1. cbn [shape nd_map]. rewrite S1, bshape_refl. cbn [bind_opt].
  match goal with |- context[nd_reduce_first xsum ?t] => rewrite (reduce_first_R xsum t D eq_refl) end. cbn [bind_opt]. unfold nd_op. cbn [shape nd_map]. rewrite bshape_refl. cbn [bind_opt fst snd].
  unfold nd_squeeze_first. cbn [shape nd_map]. rewrite last_last. cbn [Nat.eqb bind_opt]. rewrite removelast_last.
  unfold slog_sum_over_axis, log_linear_exp, terms_divided_by_max.
  assert (MS : map snd vs = tab D (fun k => entry (snd x) (b ++ [k]))) by (rewrite EV, map_tab; reflexivity).
  set (mx := max_of (tab D (fun k => entry (snd x) (b ++ [k])))).
  assert (ML : match map snd vs with [] => None | v :: vs0 => Some (xmax_list v vs0, map (fun p => xmul (fst p) (xexp (xsub (snd p) (xmax_list v vs0)))) vs) end = Some (mx, map (fun p => xmul (fst p) (xexp (xsub (snd p) mx))) vs)).
  { unfold mx. rewrite MS. destruct D as [|D']; [contradiction|]. rewrite !tab_S. reflexivity. }
  cbv zeta. rewrite ML. do 2 eexists. split; [reflexivity|]. split; [reflexivity|].
  assert (TR : tab D (fun c => xmul (entry (fst x) (broadcast_index (B ++ [D]) (removelast (b ++ [0]) ++ [c]))) (xexp (xsub (entry (snd x) (broadcast_index (B ++ [D]) (broadcast_index (B ++ [D]) (removelast (b ++ [0]) ++ [c])))) (max_of (tab D (fun c0 => entry (snd x) (removelast (broadcast_index (B ++ [1]) (broadcast_index (B ++ [D]) (removelast (b ++ [0]) ++ [c]))) ++ [c0]))))))) =
               map (fun p => xmul (fst p) (xexp (xsub (snd p) mx))) vs).
  { rewrite EV, map_tab. apply tab_ext; intros k Hk. cbn [fst snd]. rewrite removelast_last. rewrite !(bindex_in (B ++ [D]) (b ++ [k])) by (apply inb_app; assumption). rewrite bindex_tail by exact Hb. rewrite removelast_last. reflexivity. }
  assert (B1 : broadcast_index (B ++ [1]) (b ++ [0]) = b ++ [0]) by (apply bindex_tail; exact Hb).
  split; [reflexivity|]. split; [reflexivity|]. unfold from_divided. cbn [fst snd entry nd_map]. split.
  - rewrite TR. reflexivity.
  - rewrite !B1. rewrite TR. rewrite removelast_last. reflexivity.
Qed.

(** ** The whole call *)
Definition blocks_ordered (m : ferminet) (n : nat) : Prop :=
  ordered_split (fn_split m) n /\ forall k, In k (fn_backflow m) -> ordered_split (l1_split (b_one k)) n.

Lemma concat_R D q ts ls : Forall2 (RDet D q) ts ls -> ls <> [] -> D <> 0 ->
  exists y, nd_concatenate ts 2 = Some y /\ RDet D q y (map (@concat vec) (determinant_slices ls D)).
Proof.
  intros H NE HD.
  assert (K : forall k, k < D -> exists y, nd_concatenate ts 2 = Some y /\ R2 (B ++ [D]) (b ++ [k]) q y (concat (map (fun o => nth k o []) ls))).
  { intros k Hk. apply concat_rows_R2; [|intros Q; apply NE; destruct ls; [reflexivity|discriminate]]. clear NE. induction H as [|t l ts ls [L Ht] _ IH]; [constructor|]. cbn [map]. constructor; [apply Ht; exact Hk|exact IH]. }
  destruct (K 0 ltac:(lia)) as [y [Ey _]]. exists y. split; [exact Ey|]. split; [unfold determinant_slices; rewrite !map_length, seq_length; reflexivity|].
  intros k Hk. unfold determinant_slices. rewrite (nth_map0 _ _ _ []) by (rewrite map_length, seq_length; exact Hk). rewrite (nth_map0 _ _ _ 0) by (rewrite seq_length; exact Hk). rewrite seq_nth by exact Hk. cbn [Nat.add].
  destruct (K k Hk) as [y' [Ey' Ry']]. rewrite Ey in Ey'. injection Ey' as <-. exact Ry'.
Qed.

End Batch5.
