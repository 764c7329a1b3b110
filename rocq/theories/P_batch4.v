(** The batched input streams and orbitals. *)
From Coq Require Import Reals List Bool Arith Lia.
From Verif Require Import XReal M_slog M_models M_antisym M_construct M_tensor M_batch P_tab P_batch P_batch2 P_batch3.
Import ListNotations.

Section Batch4.
Context (B b : list nat) (Hb : inb b B).
Notation R2 := (R2 B b).
Notation R3 := (R3 B b).

Lemma zip_app_map {A} (g : list A -> list A) (l : list (list A)) : zipw (@app A) l (map g l) = map (fun v => v ++ g v) l.
Proof. unfold zipw. induction l as [|a l IH]; [reflexivity|]. cbn; f_equal; exact IH. Qed.

Definition ions_ok (d : nat) (o : stream_options) : Prop := match so_ion_pos o with Some ions => forall v, In v ions -> length v = d | None => True end.
Definition ei_rel (d : nat) (o : stream_options) (y : option tensor) (q : option arr3) : Prop :=
  match so_ion_pos o, y, q with
  | None, None, None => True
  | Some ions, Some y, Some q => R3 (length ions) d y q
  | _, _, _ => False
  end.

(** equivariance.py 37-187. *)
Lemma streams_R d o x l : R2 d x l -> 0 < length l -> ions_ok d o -> (so_ion_pos o = None \/ so_ei_norm o = true) ->
  exists x1 x2 xr m d2 rows q r_ei r_ee,
    nd_input_streams d o x = Some (x1, x2, xr) /\ compute_input_streams o l = (Rows rows, q, r_ei, r_ee) /\
    R2 m x1 rows /\ length rows = length l /\ pair_stream B b (length l) d2 x2 q /\ ei_rel d o xr r_ei /\
    (match r_ei with Some r => length r = length l | None => True end).
Proof.
  intros H L IO EN. unfold nd_input_streams, compute_input_streams.
  assert (EI : exists x1 xr m rows r_ei, nd_electron_ion x (option_map (ion_tensor d) (so_ion_pos o)) (so_ei_norm o) (so_ei_soft o) = Some (x1, xr) /\
     compute_electron_ion l (so_ion_pos o) (so_ei_norm o) (so_ei_soft o) = (Rows rows, r_ei) /\ R2 m x1 rows /\ length rows = length l /\ ei_rel d o xr r_ei /\
     (match r_ei with Some r => length r = length l | None => True end)).
  { unfold ei_rel, ions_ok in *. destruct (so_ion_pos o) as [ions|]; cbn [option_map nd_electron_ion compute_electron_ion].
    - destruct EN as [EN|EN]; [discriminate|]. rewrite EN.
      destruct (displacements_ions B b Hb d x l ions H IO) as [y [Ey Ry]]. rewrite Ey. cbn [bind_opt].
      destruct (norm_keep_R3 B b _ _ _ _ Ry) as [z [Ez Rz]]. rewrite Ez. cbn [bind_opt].
      pose proof (map_R3 B b (softened (so_ei_soft o)) _ _ _ _ Rz) as Rs.
      destruct (concat2_R3 B b _ _ _ _ _ _ _ Ry Rs) as [w [Ew Rw]]; [rewrite !map_length; reflexivity|]. rewrite Ew. cbn [bind_opt].
      assert (LD : length (displacements l ions) = length l) by (unfold displacements; apply map_length).
      destruct (flatten_R3 B b Hb _ _ _ _ Rw) as [u [Eu Ru]]; [unfold zipw; rewrite map_length, combine_length, !map_length, LD; lia|]. rewrite Eu. cbn [bind_opt].
      exists u, (Some y), (length ions * (d + 1)), (map (fun row => concat (map (fun v => v ++ [softened (so_ei_soft o) (norm v)]) row)) (displacements l ions)), (Some (displacements l ions)).
      split; [reflexivity|]. split; [reflexivity|]. split; [|split; [rewrite map_length; exact LD|split; [exact Ry|exact LD]]].
      match goal with |- R2 _ _ ?a => match type of Ru with R2 _ _ ?c => replace a with c; [exact Ru|] end end.
      clear. induction (displacements l ions) as [|row r IH]; [reflexivity|]. unfold zipw in *. cbn [map combine fst snd]. f_equal; [|exact IH]. f_equal.
      rewrite !map_map. cbn [map]. apply (zip_app_map (fun v => [softened (so_ei_soft o) (norm v)])).
    - exists x, None, d, l, None. auto 10. }
  destruct EI as (x1 & xr & m & rows & r_ei & E1 & E2 & E3 & E4 & E5 & E6). rewrite E1, E2. cbn [bind_opt fst snd].
  destruct (so_2e o).
  2:{ exists x1, None, xr, m, 0, rows, None, r_ei, None. cbn [pair_stream]. auto 10. }
  unfold nd_electron_electron, compute_electron_electron.
  destruct (displacements_self B b Hb d x l H) as [y [Ey Ry]]. rewrite Ey. cbn [bind_opt].
  assert (LD : length (displacements l l) = length l) by (unfold displacements; apply map_length).
  destruct (so_ee_norm o).
  - destruct (ee_norm_R3 B b Hb _ _ _ _ (so_ee_soft o) Ry LD) as [z [Ez Rz]]. rewrite Ez. cbn [bind_opt].
    assert (LN : length (compute_ee_norm_with_safe_diag (displacements l l) (so_ee_soft o)) = length l) by (unfold compute_ee_norm_with_safe_diag; rewrite mapi_length; exact LD).
    destruct (concat2_R3 B b _ _ _ _ _ _ _ Ry Rz) as [w [Ew Rw]]; [rewrite map_length, LN; exact LD|]. rewrite Ew. cbn [bind_opt fst snd].
    exists x1, (Some w), xr, m, (d + 1), rows, (Some (zipw (zipw (fun v nrm => v ++ [nrm])) (displacements l l) (compute_ee_norm_with_safe_diag (displacements l l) (so_ee_soft o)))), r_ei, (Some (displacements l l)).
    split; [reflexivity|]. split; [reflexivity|]. split; [exact E3|]. split; [exact E4|]. split; [|auto]. cbn [pair_stream]. split.
    + match goal with |- R3 _ _ _ ?a => match type of Rw with R3 _ _ _ ?c => replace a with c; [exact Rw|] end end.
      clear. generalize (displacements l l) as A, (compute_ee_norm_with_safe_diag (displacements l l) (so_ee_soft o)) as C. unfold zipw.
      induction A as [|a A IH]; intros [|c C]; [reflexivity|reflexivity|reflexivity|]. cbn [map combine fst snd]. f_equal; [|apply IH].
      clear. revert c. induction a as [|v a IH]; intros [|n c]; [reflexivity|reflexivity|reflexivity|]. cbn [map combine fst snd]. f_equal. apply IH.
    + unfold zipw. rewrite map_length, combine_length, LD, LN. lia.
  - cbn [bind_opt fst snd]. exists x1, (Some y), xr, m, d, rows, (Some (displacements l l)), r_ei, (Some (displacements l l)). cbn [pair_stream]. auto 10.
Qed.

(** ** Envelopes *)
(** The scaled displacements of one split: (n, norb, nion, d). *)
Definition scaled_at (l : orbital_layer) (p : orbital_split) (d nion : nat) (rows : arr3) (t : tensor) : Prop :=
  shape t = d :: nion :: o_norb p :: length rows :: B /\
  forall i o a, i < length rows -> o < o_norb p -> a < nion ->
    scaled_displacement l p o a (nth a (nth i rows []) []) = tab d (fun c => entry t (c :: a :: o :: i :: b)).

Lemma swap2 a c r : swap_last 2 (a :: c :: r) = c :: a :: r.
Proof. reflexivity. Qed.
Lemma swap3 a c e r : swap_last 3 (a :: c :: e :: r) = e :: c :: a :: r.
Proof. reflexivity. Qed.

Lemma isotropy_R l p d nion t rows : ol_isotropic l = true -> R3 nion d t rows ->
  exists u, nd_isotropy_on_leaf t (o_norb p) (o_iso p) = Some u /\ scaled_at l p d nion rows u.
Proof.
  intros ISO H. destruct (R3_tab _ _ _ _ _ _ H) as (n & f & L & S & E & F).
  unfold nd_isotropy_on_leaf, nd_swapaxes. rewrite S. cbn [length Nat.leb andb bind_opt shape]. rewrite swap2.
  unfold nd_expand_dims. cbn [shape length Nat.leb bind_opt insert_at firstn skipn app].
  unfold nd_repeat_last. cbn [shape Nat.eqb orb bind_opt].
  unfold nd_multiply1, axis_size. cbn [shape nth_error bind_opt].
  unfold nd_op. cbn [shape matrix_tensor]. rewrite (bshape_same _ _ _ _ (bshape_r1 _ _ _ _ (bshape_nil _))). cbn [bind_opt shape length Nat.leb andb].
  eexists; split; [reflexivity|]. unfold scaled_at. cbn [shape]. rewrite swap3, L. split; [reflexivity|].
  intros i o a Hi Ho Ha. unfold scaled_displacement. rewrite ISO. rewrite E. rewrite !nth_tab by assumption. rewrite map_tab.
  apply tab_ext; intros c Hc. cbn [entry]. rewrite swap3. cbn [broadcast_index Nat.eqb tl drop_at firstn skipn app]. rewrite swap2. cbn [matrix_tensor entry nth].
  rewrite !one_or, (bindex_in B b Hb) by assumption. rewrite F by assumption. reflexivity.
Qed.

Lemma aniso_entry norb d nion n (x : tensor) o c a i : shape x = d * norb :: nion :: n :: B -> o < norb -> c < d -> a < nion -> i < n ->
  unravel (d * norb :: nion :: n :: B) (ravel (norb :: d :: nion :: n :: B) (o :: c :: a :: i :: b)) = (c * norb + o) :: a :: i :: b.
Proof.
  intros S Ho Hc Ha Hi. cbn [ravel]. fold (ravel B b). set (v := a + nion * (i + n * ravel B b)).
  assert (EV : unravel (nion :: n :: B) v = a :: i :: b) by (unfold v; change (a + nion * (i + n * ravel B b)) with (ravel (nion :: n :: B) (a :: i :: b)); apply unravel_ravel; repeat constructor; assumption).
  assert (D : d * norb <> 0) by (intros Z; apply Nat.eq_mul_0 in Z; lia).
  assert (LT : c * norb + o < d * norb) by nia.
  replace (o + norb * (c + d * v)) with ((c * norb + o) + v * (d * norb)) by ring.
  change (unravel (d * norb :: nion :: n :: B) (c * norb + o + v * (d * norb))) with
    ((c * norb + o + v * (d * norb)) mod (d * norb) :: unravel (nion :: n :: B) ((c * norb + o + v * (d * norb)) / (d * norb))).
  rewrite Nat.mod_add, Nat.div_add by exact D. rewrite Nat.mod_small, Nat.div_small by exact LT. cbn [Nat.add]. rewrite EV. reflexivity.
Qed.

(** One dense layer per ion, along the ion axis. *)
Lemma ion_bounds q : forall st n, st + S q = n -> bounds n st (map (fun j => S j * 1) (seq st q)) = map (fun j => (j, 1)) (seq st (S q)).
Proof.
  induction q as [|q IH]; intros st n E; cbn [seq map bounds].
  - f_equal. f_equal. lia.
  - f_equal; [f_equal; lia|]. replace (S st * 1) with (S st) by lia. rewrite IH by lia. reflexivity.
Qed.
Lemma pick_ones ts : forall c k i (d0 : tensor), (forall t, In t ts -> nth 1 (shape t) 0 = 1) -> c < length ts ->
  forall x0, pick 1 ts c (k :: x0 :: i) = entry (nth c ts d0) (k :: 0 :: i).
Proof.
  induction ts as [|t ts IH]; intros c k i d0 W Hc x0; [cbn in Hc; lia|]. cbn [pick]. rewrite W by (left; reflexivity).
  destruct c as [|c]; [reflexivity|]. cbn [nth]. replace (Nat.ltb (S c) 1) with false by (symmetry; apply Nat.ltb_ge; lia). replace (S c - 1) with c by lia.
  apply IH; [intros; apply W; right; assumption|cbn in Hc; lia].
Qed.

Lemma anisotropy_R l p d nion t rows : ol_isotropic l = false -> R3 nion d t rows -> 0 < nion ->
  exists u, nd_anisotropy_on_leaf t (o_norb p) (o_aniso p) = Some u /\ scaled_at l p d nion rows u.
Proof.
  intros ISO H N. destruct (R3_tab _ _ _ _ _ _ H) as (n & f & L & S & E & F).
  unfold nd_anisotropy_on_leaf, axis_size. rewrite S. cbn [nth_error bind_opt].
  set (norb := o_norb p).
  unfold nd_split_dense. rewrite map_length, seq_length. cbn [get_nsplits]. rewrite Nat.eqb_refl. cbn [check].
  unfold nd_split, axis_size. rewrite S. cbn [nth_error bind_opt split_points].
  destruct (Nat.eqb_spec nion 0) as [Z|_]; [lia|]. rewrite Nat.mod_same, Nat.div_same by lia. cbn [Nat.eqb bind_opt].
  rewrite (ion_bounds (nion - 1) 0 nion) by lia. replace (Datatypes.S (nion - 1)) with nion by lia. cbn [Nat.sub]. rewrite map_map.
  (* the dense layers *)
  set (sl := fun j => nd_slice t 1 (j, 1)).
  assert (DL : forall j, j < nion -> exists y, nd_dense (d * norb) (o_aniso p j) None (sl j) = Some y /\ shape y = d * norb :: 1 :: n :: B /\
     forall k i, k < d * norb -> i < n -> entry y (k :: 0 :: i :: b) = xsum (tab d (fun c => xmul (f i j c) (o_aniso p j c k)))).
  { intros j Hj. unfold nd_dense, axis_size, sl, nd_slice, nd_dot. rewrite S. cbn [shape replace_at firstn skipn app snd nth_error bind_opt matrix_tensor]. rewrite Nat.eqb_refl. cbn [bind_opt].
    eexists; split; [reflexivity|]. split; [reflexivity|]. intros k i Hk Hi. cbn [entry tl hd nth fst replace_at firstn skipn app]. f_equal. apply tab_ext; intros c Hc.
    rewrite Nat.add_0_r, F by assumption. reflexivity. }
  assert (SEQ : exists ys, sequence (zipw (fun t0 p0 => nd_dense (md_features p0) (md_kernel p0) (md_bias p0) t0) (map sl (seq 0 nion)) (map (fun ion => Build_mean_dense (d * norb) (o_aniso p ion) None) (seq 0 nion))) = Some ys /\
     Forall2 (fun y j => nd_dense (d * norb) (o_aniso p j) None (sl j) = Some y) ys (seq 0 nion)).
  { assert (Q : forall js, (forall j, In j js -> j < nion) -> exists ys, sequence (zipw (fun t0 p0 => nd_dense (md_features p0) (md_kernel p0) (md_bias p0) t0) (map sl js) (map (fun ion => Build_mean_dense (d * norb) (o_aniso p ion) None) js)) = Some ys /\ Forall2 (fun y j => nd_dense (d * norb) (o_aniso p j) None (sl j) = Some y) ys js).
    { induction js as [|j js IH]; intros W; [exists []; split; [reflexivity|constructor]|].
      destruct (DL j (W j (or_introl eq_refl))) as [y [Ey _]]. destruct (IH (fun j0 Hj0 => W j0 (or_intror Hj0))) as [ys [Es Fs]]. exists (y :: ys).
      unfold zipw in *. cbn [map combine fst snd sequence md_features md_kernel md_bias]. rewrite Ey, Es. split; [reflexivity|constructor; assumption]. }
    apply Q. intros j Hj; apply in_seq in Hj; lia. }
  destruct SEQ as [ys [Es Fs]]. rewrite Es. cbn [bind_opt].
  assert (Ly : length ys = nion) by (rewrite (Forall2_len _ _ _ Fs), seq_length; reflexivity).
  assert (SH : forall y, In y ys -> shape y = d * norb :: 1 :: n :: B).
  { intros y Hy. destruct (In_nth _ _ t Hy) as [j [Hj Ej]]. rewrite Ly in Hj. pose proof (Forall2_nths _ _ _ Fs j t 0 ltac:(lia)) as Q. cbn beta in Q. rewrite seq_nth in Q by exact Hj. cbn [Nat.add] in Q.
    destruct (DL j Hj) as [y' [Ey' [Sy' _]]]. rewrite Ej, Ey' in Q. injection Q as <-. exact Sy'. }
  assert (CC : nd_concatenate ys 2 = Some {| shape := d * norb :: nion :: n :: B; entry := fun i => pick 1 ys (nth 1 i 0) i |}).
  { destruct ys as [|y0 ys]; [cbn in Ly; lia|]. unfold nd_concatenate, axis_size. rewrite (SH y0) by (left; reflexivity). cbn [nth_error bind_opt].
    match goal with |- context[forallb ?g ?q] => assert (FB : forallb g q = true) end.
    { apply forallb_forall. intros y Hy. rewrite (SH y Hy). cbn [length Nat.sub drop_at firstn skipn app]. rewrite Nat.eqb_refl, list_eqb_refl; reflexivity. }
    rewrite FB. cbn [Nat.sub replace_at firstn skipn app]. f_equal. f_equal. f_equal. f_equal.
    transitivity (length (y0 :: ys)); [|exact Ly]. clear -SH. induction (y0 :: ys) as [|u us IH]; [reflexivity|]. cbn [map list_sum fold_right length]. rewrite (SH u) by (left; reflexivity). cbn [nth]. unfold list_sum in IH. rewrite IH by (intros; apply SH; right; assumption). reflexivity. }
  rewrite CC. cbn [bind_opt skipn]. unfold nd_reshape. cbn [shape].
  assert (EP : size_of (norb :: d :: nion :: n :: B) = size_of (d * norb :: nion :: n :: B)) by (cbn [size_of fold_right]; ring).
  rewrite EP, Nat.eqb_refl. cbn [bind_opt]. unfold nd_swapaxes. cbn [shape length Nat.leb andb bind_opt]. rewrite swap3. cbn [shape length Nat.leb andb bind_opt]. rewrite swap2.
  eexists; split; [reflexivity|]. unfold scaled_at. cbn [shape]. rewrite L. split; [reflexivity|].
  intros i o a Hi Ho Ha. unfold scaled_displacement. rewrite ISO. rewrite E. rewrite !nth_tab by assumption. rewrite tab_length. fold norb in Ho |- *.
  fold (tab d (fun c => nth (c * norb + o) (dense (d * norb) (o_aniso p a) None (tab d (f i a))) (Fin 0))). apply tab_ext; intros c Hc.
  rewrite dense_tab. assert (LT : c * norb + o < d * norb) by nia. rewrite nth_tab by exact LT. cbv zeta.
  cbn [entry]. rewrite swap2, swap3.
  rewrite (aniso_entry norb d nion n {| shape := d * norb :: nion :: n :: B; entry := entry t |} o c a i eq_refl Ho Hc Ha Hi). cbn [nth].
  rewrite (pick_ones ys a _ _ t) by (try lia; intros y Hy; rewrite (SH y Hy); reflexivity).
  pose proof (Forall2_nths _ _ _ Fs a t 0 ltac:(lia)) as Q. cbn beta in Q. rewrite seq_nth in Q by exact Ha. cbn [Nat.add] in Q.
  destruct (DL a Ha) as [y' [Ey' [Sy' Fy']]]. rewrite Ey' in Q. injection Q as <-. rewrite Fy' by assumption. reflexivity.
Qed.

Lemma envelope_leaf_R l p d nion t rows : R3 nion d t rows -> 0 < nion ->
  exists u, nd_envelopes_on_leaf l p t = Some u /\ R2 (o_norb p) u (map (fun row => map (envelope l p row) (seq 0 (o_norb p))) rows).
Proof.
  intros H N. assert (ST : exists u, (if ol_isotropic l then nd_isotropy_on_leaf t (o_norb p) (o_iso p) else nd_anisotropy_on_leaf t (o_norb p) (o_aniso p)) = Some u /\ scaled_at l p d nion rows u).
  { destruct (ol_isotropic l) eqn:ISO; [apply isotropy_R|apply anisotropy_R]; assumption. }
  destruct ST as [u [Eu [S F]]]. unfold nd_envelopes_on_leaf. rewrite Eu. cbn [bind_opt].
  unfold nd_reduce at 1. unfold axis_size. rewrite S. cbn [nth_error bind_opt Nat.sub drop_at firstn skipn app].
  unfold nd_multiply2, axis_size. cbn [nd_map shape nth_error bind_opt].
  unfold nd_op. cbn [shape nd_map]. rewrite (bshape_same _ _ _ _ (bshape_same _ _ _ _ (bshape_r1 _ _ _ _ (bshape_nil _)))). cbn [bind_opt].
  unfold nd_reduce, axis_size. cbn [shape nth_error bind_opt Nat.sub drop_at firstn skipn app].
  eexists; split; [reflexivity|].
  apply (R2_make B b (o_norb p) (length rows) _ _ (fun i o => envelope l p (nth i rows []) o)); [reflexivity| |].
  - rewrite (list_tab rows []) at 1. rewrite map_tab. apply tab_ext; intros i Hi. reflexivity.
  - intros i o Hi Ho. cbn [entry]. unfold envelope.
    destruct (R3_tab _ _ _ _ _ _ H) as (n & f & L & S' & E & F').
    assert (Lr : length (nth i rows []) = nion) by (rewrite E; rewrite nth_tab by lia; apply tab_length).
    rewrite (list_tab (nth i rows []) []) at 1. rewrite mapi_tab, Lr. f_equal. unfold along. fold (tab nion (fun c => entry {| shape := nion :: o_norb p :: length rows :: B; entry := fun i0 : list nat => xmul (entry {| shape := nion :: o_norb p :: length rows :: B; entry := fun i1 : list nat => xexp (xopp (softened (ol_soft l) (entry {| shape := nion :: o_norb p :: length rows :: B; entry := fun i2 : list nat => norm (along 0 d (entry u) i2) |} i1))) |} (broadcast_index (nion :: o_norb p :: length rows :: B) i0)) (entry {| shape := [nion; o_norb p; 1]; entry := fun i1 : list nat => o_ion p (nth 1 i1 0) (nth 0 i1 0) |} (broadcast_index [nion; o_norb p; 1] i0)) |} (insert_at 0 c (o :: i :: b)))).
    apply tab_ext; intros a Ha. cbn [entry insert_at firstn skipn app broadcast_index nth Nat.eqb]. rewrite !one_or, (bindex_in B b Hb) by assumption.
    rewrite (F i o a Hi Ho Ha). reflexivity.
Qed.

(** Orbital parameters and their arrays, split by split: number of orbitals of each. *)
Definition ROrb (ts : list tensor) (ls : list arr2) (ps : list orbital_split) : Prop :=
  length ls = length ps /\ Forall2 (fun t lp => R2 (o_norb (snd lp)) t (fst lp)) ts (combine ls ps).

Lemma split_dense_R2 l x m rows ls : R2 m x rows -> split (ol_split l) rows = Some ls -> length (ol_splits l) = get_nsplits (ol_split l) ->
  exists ts, nd_split_dense (ol_split l) (map (fun p => Build_mean_dense (o_norb p) (o_kernel p) (o_bias p)) (ol_splits l)) x = Some ts /\
    ROrb ts (split_dense l rows) (ol_splits l) /\ map (@length vec) (split_dense l rows) = map (@length vec) ls.
Proof.
  intros H E N. unfold nd_split_dense. rewrite map_length, N, Nat.eqb_refl. cbn [check].
  pose proof (split_R2 B b (ol_split l) m x rows H) as SP. rewrite E in SP. destruct (nd_split x (ol_split l) 2) as [ts|]; [|contradiction]. cbn [bind_opt orel] in *.
  unfold split_dense. rewrite (pieces_of _ _ _ E). assert (LC := split_count _ _ _ E). rewrite <- N in LC. clear E N H rows x.
  revert LC. generalize (ol_splits l) as ps. induction SP as [|t q ts qs Ht _ IH]; intros [|p ps] LC; try discriminate.
  - exists []. repeat split. constructor.
  - destruct (IH ps) as [us [Es [[L1 F1] M1]]]; [cbn in LC; lia|]. destruct (dense_R2 B b Hb (o_norb p) (o_kernel p) (o_bias p) _ _ _ Ht) as [u [Eu Ru]].
    exists (u :: us). unfold zipw in *. cbn [map combine fst snd sequence md_features md_kernel md_bias]. rewrite Eu, Es. split; [reflexivity|]. split; [split|].
    + cbn [length]. rewrite L1. reflexivity.
    + cbn [combine]. constructor; [exact Ru|exact F1].
    + cbn [map]. rewrite map_length. f_equal. exact M1.
Qed.

Lemma envelopes_R l d nion x rows ls : R3 nion d x rows -> 0 < nion -> split (ol_split l) rows = Some ls -> length (ol_splits l) = get_nsplits (ol_split l) ->
  exists ts, nd_envelopes l x = Some ts /\ ROrb ts (envelopes l rows) (ol_splits l) /\ map (@length vec) (envelopes l rows) = map (@length arr2) ls.
Proof.
  intros H Hn E N. unfold nd_envelopes.
  pose proof (split_R3 B b (ol_split l) _ _ x rows H) as SP. rewrite E in SP. destruct (nd_split x (ol_split l) 3) as [ts|]; [|contradiction]. cbn [bind_opt orel] in *.
  unfold envelopes. rewrite (pieces_of _ _ _ E). assert (LC := split_count _ _ _ E). rewrite <- N in LC. rewrite (Forall2_len _ _ _ SP), LC, Nat.eqb_refl. cbn [check]. clear E N H rows x.
  revert LC. generalize (ol_splits l) as ps. induction SP as [|t q ts qs Ht _ IH]; intros [|p ps] LC; try discriminate.
  - exists []. repeat split. constructor.
  - destruct (IH ps) as [us [Es [[L1 F1] M1]]]; [cbn in LC; lia|]. destruct (envelope_leaf_R l p _ _ _ _ Ht Hn) as [u [Eu Ru]].
    exists (u :: us). unfold zipw in *. cbn [map combine fst snd sequence]. rewrite Eu, Es. split; [reflexivity|]. split; [split|].
    + cbn [length]. rewrite L1. reflexivity.
    + cbn [combine]. constructor; [exact Ru|exact F1].
    + cbn [map]. rewrite map_length. f_equal. exact M1.
Qed.

Lemma tree_prod_R2 ts us ls ls' ps : ROrb ts ls ps -> ROrb us ls' ps -> map (@length vec) ls = map (@length vec) ls' ->
  exists zs, nd_tree_op xmul ts us = Some zs /\ ROrb zs (tree_prod ls ls') ps /\ map (@length vec) (tree_prod ls ls') = map (@length vec) ls.
Proof.
  intros [L1 F1] [L2 F2] EL. unfold nd_tree_op.
  assert (LT : length ts = length us). { rewrite (Forall2_len _ _ _ F1), (Forall2_len _ _ _ F2), !combine_length. lia. }
  rewrite LT, Nat.eqb_refl. cbn [check]. clear LT.
  revert ts us ls' ps L1 F1 L2 F2 EL. induction ls as [|l ls IH]; intros ts us [|l' ls'] [|p ps] L1 F1 L2 F2 EL; try discriminate; cbn [combine] in *.
  - inversion F1; inversion F2; subst. exists []. repeat split. constructor.
  - inversion F1 as [|t ? ts' ? Ht Hts]; inversion F2 as [|u ? us' ? Hu Hus]; subst. cbn [map] in EL. injection EL as E1 E2. cbn [fst snd] in Ht, Hu.
    destruct (op_R2 B b Hb xmul _ t u l l' Ht Hu E1) as [z [Ez Rz]].
    destruct (IH ts' us' ls' ps) as [zs [Es [[Ls Fs] Ms]]]; try (cbn in *; lia || assumption).
    exists (z :: zs). unfold zipw in *; cbn [combine map fst snd sequence]. rewrite Ez, Es. split; [reflexivity|]. split; [split|].
    + unfold tree_prod, zipw in *. cbn [combine map length]. rewrite Ls. reflexivity.
    + unfold tree_prod, zipw in *. cbn [combine map fst snd]. constructor; [exact Rz|exact Fs].
    + unfold tree_prod, zipw in *. cbn [combine map fst snd]. f_equal; [rewrite map_length, combine_length; lia|exact Ms].
Qed.

(** equivariance.py 815-851. *)
Lemma orbitals_R l m d nion x rows y q : R2 m x rows -> length (ol_splits l) = get_nsplits (ol_split l) -> splittable (ol_split l) (length rows) = true ->
  match y, q with None, None => True | Some y, Some q => R3 nion d y q /\ length q = length rows /\ 0 < nion | _, _ => False end ->
  exists ts ls, nd_orbital_layer l x y = Some ts /\ ROrb ts (ferminet_orbitals l rows q) (ol_splits l) /\
    split (ol_split l) rows = Some ls /\ map (@length vec) (ferminet_orbitals l rows q) = map (@length vec) ls.
Proof.
  intros H N SP HY. destruct (split_some (ol_split l) rows SP) as [ls E].
  destruct (split_dense_R2 l x m rows ls H E N) as [ts [Et [Rt Mt]]].
  unfold nd_orbital_layer, ferminet_orbitals. rewrite Et. cbn [bind_opt].
  destruct y as [y|], q as [q|]; try contradiction.
  - destruct HY as [Ry [Lq Nn]]. destruct (split_some (ol_split l) q) as [qs Eq]; [rewrite Lq; exact SP|].
    destruct (envelopes_R l d nion y q qs Ry Nn Eq N) as [us [Eu [Ru Mu]]]. rewrite Eu. cbn [bind_opt].
    destruct (tree_prod_R2 _ _ _ _ _ Rt Ru) as [zs [Ez [Rz Mz]]].
    { rewrite Mt, Mu. apply (split_same_lengths (ol_split l) rows q ls qs E Eq). congruence. }
    exists zs, ls. rewrite Mz. auto.
  - exists ts, ls. auto.
Qed.
End Batch4.
