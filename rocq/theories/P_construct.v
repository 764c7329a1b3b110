(** * Proofs: whole wavefunctions *)
From Coq Require Import Reals List Bool Arith Lia Lra Permutation ZArith.
From Verif Require Import XReal M_slog M_models M_antisym M_construct S_models S_antisym S_construct P_xsum P_slog P_split P_equiv P_equiv2 P_jastrow P_inv P_parity P_flips P_sgn P_antisym P_antieq P_leibniz P_signsym.
Import ListNotations.
Local Open Scope R_scope.

(** ** Determinants of reordered orbital matrices *)
Inductive oflips (nd : nat) : list R -> list (list arr2) -> list (list arr2) -> Prop :=
  | of_nil : oflips nd [] [] []
  | of_cons s sgs o os o' os' : unit s -> length o = nd -> length o' = nd -> (forall k, (k < nd)%nat -> flips s (nth k o []) (nth k o' [])) ->
      oflips nd sgs os os' -> oflips nd (s :: sgs) (o :: os) (o' :: os').

Lemma oflips_unit nd sgs O O' : oflips nd sgs O O' -> Forall unit sgs.
Proof. induction 1; constructor; assumption. Qed.
Lemma oflips_slice nd sgs O O' k : oflips nd sgs O O' -> (k < nd)%nat -> bflips sgs (map (fun o => nth k o []) O) (map (fun o => nth k o []) O').
Proof. intros H Hk. induction H as [|s sgs o os o' os' U L L' F _ IH]; [constructor|]. cbn [map]. constructor; [apply F; exact Hk|exact IH]. Qed.
Lemma oflips_full nd sgs O O' : oflips nd sgs O O' ->
  oflips nd [lprod sgs] [map (@concat vec) (determinant_slices O nd)] [map (@concat vec) (determinant_slices O' nd)].
Proof.
  intros H. constructor; [apply lprod_unit, (oflips_unit nd sgs O O' H)| | | |constructor].
  1,2: unfold determinant_slices; rewrite !map_length; apply seq_length.
  intros k Hk. unfold determinant_slices. rewrite !map_map.
  rewrite !(nth_map_seq (fun k => concat (map (fun o => nth k o []) _))) by exact Hk.
  destruct (flips_blocks _ _ _ (oflips_slice nd sgs O O' k H Hk)) as (s & K & E & Es). exists s. split; [|split; [exact E|symmetry; exact Es]].
  destruct K as (K & _). assert (Ll : forall L : list arr2, list_sum (map (@length vec) L) = length (concat L)).
  { clear. intros L. induction L as [|a L IH]; [reflexivity|]. cbn [map concat]. rewrite app_length, <- IH. reflexivity. }
  rewrite <- Ll. exact K.
Qed.

Lemma sequence_signs {A B} (f : A -> option B) (g : B -> B) (l l' : list A) d : length l' = length l ->
  (forall k, (k < length l)%nat -> f (nth k l' d) = option_map g (f (nth k l d))) ->
  sequence (map f l') = option_map (map g) (sequence (map f l)).
Proof.
  revert l'. induction l as [|a l IH]; intros [|a' l'] L H; try discriminate; [reflexivity|]. cbn [map sequence].
  pose proof (H O ltac:(cbn; lia)) as H0. cbn [nth] in H0. rewrite H0. destruct (f a) as [b|]; [|reflexivity]. cbn [option_map].
  rewrite (IH l'); [|cbn in L; lia|intros k Hk; apply (H (S k)); cbn; lia]. destruct (sequence (map f l)); reflexivity.
Qed.
Lemma dets_flips nd sgs O O' : oflips nd sgs O O' ->
  sequence (map (fun o => sequence (map linalg_det o)) O') =
  option_map (zipw (fun s => vscale (Fin s)) sgs) (sequence (map (fun o => sequence (map linalg_det o)) O)).
Proof.
  induction 1 as [|s sgs o os o' os' U L L' F _ IH]; [reflexivity|]. cbn [map sequence].
  rewrite (sequence_signs linalg_det (sg s) o o' []); [|lia|intros k Hk; apply det_flips, F; lia].
  destruct (sequence (map linalg_det o)) as [v|]; [|reflexivity]. cbn [option_map]. rewrite IH.
  destruct (sequence (map (fun o => sequence (map linalg_det o)) os)) as [vs|]; reflexivity.
Qed.
Lemma dets_length nd sgs O O' v : oflips nd sgs O O' -> sequence (map (fun o => sequence (map linalg_det o)) O) = Some v ->
  length v = length sgs /\ Forall (fun u : vec => length u = nd) v.
Proof.
  intros H. revert v. induction H as [|s sgs o os o' os' U L L' F _ IH]; intros v E; cbn [map sequence] in E; [injection E as <-; split; [reflexivity|constructor]|].
  destruct (sequence (map linalg_det o)) as [a|] eqn:Ea; [|discriminate]. destruct (sequence (map (fun o => sequence (map linalg_det o)) os)) as [vs|]; [|discriminate].
  injection E as <-. destruct (IH vs eq_refl) as (L1 & L2). apply sequence_length in Ea. rewrite map_length in Ea. split; [cbn; lia|]. constructor; [lia|exact L2].
Qed.

Lemma xprod_signed sgs (v : list xr) : Forall unit sgs -> length sgs = length v -> xprod (zipw sg sgs v) = sg (lprod sgs) (xprod v).
Proof.
  intros U. revert v. induction U as [|s sgs Us U IH]; intros [|a v] L; try discriminate; [symmetry; apply sg_1|].
  unfold zipw in *. cbn [combine map fst snd]. unfold xprod, lprod in *. cbn [fold_right]. rewrite IH by (cbn in L; lia).
  fold (lprod sgs). assert (Ul : unit (lprod sgs)) by (apply lprod_unit; exact U).
  rewrite sg_xmul_l, sg_xmul_r, sg_mul by assumption. reflexivity.
Qed.
Lemma zipw_sg_l s (a b : list xr) : unit s -> zipw xmul (map (sg s) a) b = map (sg s) (zipw xmul a b).
Proof. intros U. rewrite zipw_map_l, map_zipw. apply zipw_ext. intros x y. apply sg_xmul_l. exact U. Qed.

Lemma psi_flips m sgs O O' : oflips (fn_ndet m) sgs O O' -> psi_from_orbitals m O' = option_map (signed (lprod sgs)) (psi_from_orbitals m O).
Proof.
  intros H0. unfold psi_from_orbitals. cbv zeta. set (nd := fn_ndet m) in *.
  assert (G : exists ts, oflips nd ts (if fn_full_det m then [map (@concat vec) (determinant_slices O nd)] else O)
                              (if fn_full_det m then [map (@concat vec) (determinant_slices O' nd)] else O') /\ lprod ts = lprod sgs).
  { destruct (fn_full_det m); [exists [lprod sgs]; split; [apply oflips_full; exact H0|cbn; ring]|exists sgs; split; [exact H0|reflexivity]]. }
  destruct G as (ts & H & <-). clear H0 sgs.
  set (P := if fn_full_det m then [map (@concat vec) (determinant_slices O nd)] else O) in *.
  set (P' := if fn_full_det m then [map (@concat vec) (determinant_slices O' nd)] else O') in *. clearbody P P'. clear O O'.
  pose proof (oflips_unit nd ts P P' H) as U. assert (Ul : unit (lprod ts)) by (apply lprod_unit; exact U).
  destruct (fn_det_fn m) as [fn|].
  - rewrite (dets_flips nd ts P P' H). destruct (sequence (map (fun o => sequence (map linalg_det o)) P)) as [v|] eqn:Ev; [|reflexivity].
    destruct (dets_length nd ts P P' v H Ev) as (Lv & Fv). cbn [option_map bind_opt].
    assert (Even : forall dout, make_array_list_fn_sign_invariant dout (fn dout) (zipw (fun s => vscale (Fin s)) ts v) = make_array_list_fn_sign_invariant dout (fn dout) v)
      by (intros dout; apply invariant_vec; [exact U|symmetry; exact Lv]).
    destruct (fn_mode m).
    + cbn [bind_opt option_map]. f_equal. rewrite covariant_vec by (exact U || (symmetry; exact Lv)). rewrite nth_vscale. apply sg_slog. exact Ul.
    + cbn [bind_opt option_map]. f_equal. rewrite <- sg_slog by exact Ul. f_equal. unfold psi_parallel_even. cbv zeta. rewrite Even.
      rewrite <- sg_sum by exact Ul. f_equal. rewrite <- zipw_sg_l by exact Ul. f_equal. rewrite map_map. apply map_ext. intros k.
      rewrite <- xprod_signed by (exact U || (rewrite map_length; symmetry; exact Lv)). f_equal.
      rewrite map_zipw, zipw_map_r. apply zipw_ext. intros s u. apply nth_vscale.
    + unfold psi_pairwise_even. destruct v as [|up [|down [|]]], ts as [|s [|t [|]]]; try discriminate Lv; try reflexivity.
      unfold zipw in Even at 1. cbn [combine map fst snd] in Even. unfold zipw at 1. cbn [combine map fst snd bind_opt option_map]. f_equal. rewrite <- sg_slog by exact Ul. f_equal. rewrite Even.
      rewrite <- sg_sum by exact Ul. f_equal. rewrite <- zipw_sg_l by exact Ul. f_equal. rewrite concat_map, map_map. unfold vscale. rewrite map_map. f_equal. apply map_ext. intros u.
      rewrite !map_map. apply map_ext. intros d. inversion U as [|? ? Us Ur]; subst. inversion Ur as [|? ? Ut _]; subst.
      change (xmul (sg s u) (sg t d) = sg (s * (t * 1)) (xmul u d)). rewrite sg_xmul_l, sg_xmul_r, sg_mul by assumption. rewrite Rmult_1_r. reflexivity.
  - rewrite (sequence_signs slogdet_product (signed (lprod ts)) (determinant_slices P nd) (determinant_slices P' nd) []).
    + destruct (sequence (map slogdet_product (determinant_slices P nd))) as [l|]; [|reflexivity]. cbn [option_map bind_opt]. apply log_linear_exp_signed. exact Ul.
    + unfold determinant_slices. rewrite !map_length. reflexivity.
    + intros k Hk. unfold determinant_slices in *. rewrite map_length, seq_length in Hk.
      rewrite !(nth_map_seq (fun k => map (fun o => nth k o []) _)) by exact Hk. apply slogdet_product_flips. apply (oflips_slice nd); assumption.
Qed.

(** ** From blocks of raw orbitals *)
Definition orel (nd : nat) (sgs : list R) (o o' : option (list (list arr2))) : Prop :=
  match o, o' with Some a, Some b => oflips nd sgs a b | None, None => True | _, _ => False end.
Lemma psi_orel m sgs o o' : orel (fn_ndet m) sgs o o' ->
  bind_opt o' (psi_from_orbitals m) = option_map (signed (lprod sgs)) (bind_opt o (psi_from_orbitals m)).
Proof. destruct o, o'; cbn; try contradiction; [apply psi_flips|reflexivity]. Qed.

Definition rows_equal (b : arr2) : Prop := exists w, Forall (fun r : vec => length r = w) b.
Lemma flips_width s b b' : flips s b b' -> rows_equal b -> width b' = width b.
Proof.
  intros F (w & H). assert (P := flips_perm _ _ _ F). unfold width. destruct b as [|r b]; [apply Permutation_sym, Permutation_nil in P; subst; reflexivity|].
  destruct b' as [|r' b']; [symmetry in P; apply Permutation_sym, Permutation_nil in P; discriminate|]. cbn [hd].
  rewrite Forall_forall in H. rewrite (H r) by (left; reflexivity). apply H. apply (Permutation_in _ P). left. reflexivity.
Qed.
Lemma reshape_flips nd s b b' : flips s b b' -> rows_equal b ->
  match reshape_raw_orbitals nd b, reshape_raw_orbitals nd b' with
  | Some o, Some o' => length o = nd /\ length o' = nd /\ (forall k, (k < nd)%nat -> flips s (nth k o []) (nth k o' []))
  | None, None => True | _, _ => False end.
Proof.
  intros F Rw. unfold reshape_raw_orbitals. cbv zeta. rewrite (flips_width s b b' F Rw). destruct (Nat.eqb nd 0); [exact I|].
  destruct (Nat.eqb (width b mod nd) 0); [|exact I]. rewrite !map_length, seq_length. split; [reflexivity|]. split; [reflexivity|].
  intros k Hk. rewrite !(nth_map_seq (fun k => map (fun row => firstn (width b / nd) (skipn (k * (width b / nd)) row)) _)) by exact Hk.
  apply flips_map. exact F.
Qed.
Lemma raw_orel nd sgs L L' : bflips sgs L L' -> Forall rows_equal L ->
  orel nd sgs (sequence (map (reshape_raw_orbitals nd) L)) (sequence (map (reshape_raw_orbitals nd) L')).
Proof.
  induction 1 as [|s sgs l ls l' ls' F B IH]; intros Rw; cbn [map sequence]; [constructor|]. inversion Rw as [|? ? R1 R2]; subst.
  pose proof (reshape_flips nd s l l' F R1) as Q. destruct (reshape_raw_orbitals nd l) as [o|], (reshape_raw_orbitals nd l') as [o'|]; try contradiction; [|exact I].
  specialize (IH R2). destruct (sequence (map _ ls)) as [os|], (sequence (map _ ls')) as [os'|]; try contradiction; [|exact I].
  cbn [orel] in *. destruct Q as (Q1 & Q2 & Q3). constructor; try assumption. exact (flips_unit _ _ _ F).
Qed.

Lemma orbital_row_length l b xi ri : length (orbital_row l b xi ri) = o_norb (nth b (ol_splits l) orbital_default).
Proof.
  unfold orbital_row. cbv zeta. destruct ri as [r|]; [rewrite zipw_length, map_length, seq_length|]; unfold dense; rewrite map_length, seq_length; lia.
Qed.
Lemma by_spin_rows {sizes} (g : nat -> nat -> vec) (w : nat -> nat) : (forall b i, length (g b i) = w b) -> Forall rows_equal (by_spin sizes g).
Proof.
  intros H. apply Forall_forall. intros blk Hb. apply (In_nth _ _ []) in Hb. destruct Hb as (b & Hb & <-). rewrite by_spin_length in Hb.
  rewrite by_spin_nth by exact Hb. exists (w b). apply Forall_map, Forall_forall. intros i _. apply H.
Qed.
Lemma raw_flips l sizes s x r : orbitals_ok sizes l -> keeps_spins sizes s -> length x = list_sum sizes ->
  match r with Some r => length r = list_sum sizes | None => True end ->
  bflips (block_signs sizes s) (ferminet_orbitals l x r) (ferminet_orbitals l (reorder s x) (reorder_opt s r)) /\ Forall rows_equal (ferminet_orbitals l x r).
Proof.
  intros O K L Lr. rewrite (orbitals_equivariant l sizes s x r O (proj1 K) L Lr), (orbitals_rows l sizes x r O L Lr). split.
  - apply (by_spin_flips sizes s (fun b i => orbital_row l b (nth i x []) (option_map (fun r => nth i r []) r)) K).
  - apply (by_spin_rows _ (fun b => o_norb (nth b (ol_splits l) orbital_default))). intros b i. apply orbital_row_length.
Qed.
Lemma eval_orel m osplit norbs sizes s x r : describes osplit sizes -> keeps_spins sizes s -> length x = list_sum sizes ->
  match r with Some r => length r = list_sum sizes | None => True end ->
  orel (fn_ndet m) (block_signs sizes s) (eval_orbitals m osplit norbs x r) (eval_orbitals m osplit norbs (reorder s x) (reorder_opt s r)).
Proof.
  intros D K L Lr. unfold eval_orbitals, check. rewrite reorder_length. destruct (Nat.eqb_spec (length norbs) (get_nsplits osplit)) as [E|E]; [|exact I].
  cbn [andb]. destruct (splittable osplit (length x)); [|exact I].
  assert (O : orbitals_ok sizes (orbital_layer_of m osplit norbs)).
  { split; [exact D|]. cbn [orbital_layer_of ol_splits]. rewrite mapi_length, E. apply nsplits_of. exact D. }
  destruct (raw_flips _ sizes s x r O K L Lr) as (B & Rw). apply raw_orel; assumption.
Qed.

(** ** Input streams *)
Lemma streams_shape o n d x : shape2 n d x -> ions_fit d o ->
  forall i1 i2 r_ei r_ee, compute_input_streams o x = (i1, i2, r_ei, r_ee) ->
  (forall x1, rows_of_input i1 = Some x1 -> exists d1, shape2 n d1 x1) /\ (exists d2, shape_opt n d2 i2) /\
  match r_ei with Some r => length r = n | None => True end /\ match r_ee with Some r => length r = n | None => True end.
Proof.
  intros Sx Fi i1 i2 r1 r2 E. unfold compute_input_streams in E.
  assert (A : forall j q, compute_electron_ion x (so_ion_pos o) (so_ei_norm o) (so_ei_soft o) = (j, q) ->
    (forall x1, rows_of_input j = Some x1 -> exists d1, shape2 n d1 x1) /\ match q with Some r => length r = n | None => True end).
  { intros j q Ej. unfold ions_fit in Fi. destruct (so_ion_pos o) as [ions|] eqn:Ei.
    - destruct (so_ei_norm o).
      + destruct (ei_shape n (length ions) d x ions (so_ei_soft o) Sx Fi) as (r & Er & Sr). rewrite Er in Ej. injection Ej as <- <-. split.
        * intros x1 E1. injection E1 as <-. eexists. exact Sr.
        * apply (displacements_shape n (length ions) d x ions Sx Fi).
      + cbn in Ej. injection Ej as <- <-. split; [discriminate|]. apply (displacements_shape n (length ions) d x ions Sx Fi).
    - cbn in Ej. injection Ej as <- <-. split; [|exact I]. intros x1 E1. injection E1 as <-. exists d. exact Sx. }
  destruct (compute_electron_ion x (so_ion_pos o) (so_ei_norm o) (so_ei_soft o)) as (j, q) eqn:Ej. destruct (A j q eq_refl) as (A1 & A2). clear A Ej.
  destruct (so_2e o).
  - pose proof (ee_shape n d x (so_ee_norm o) (so_ee_soft o) Sx) as Se.
    assert (L2 : length (snd (compute_electron_electron x (so_ee_norm o) (so_ee_soft o))) = n).
    { unfold compute_electron_electron. cbv zeta. destruct (so_ee_norm o); apply (displacements_shape n n d x x Sx Sx). }
    destruct (compute_electron_electron x (so_ee_norm o) (so_ee_soft o)) as (y, q2). cbn [fst snd] in *. injection E as <- <- <- <-.
    split; [exact A1|]. split; [eexists; exact Se|]. split; [exact A2|exact L2].
  - injection E as <- <- <- <-. split; [exact A1|]. split; [exists O; exact I|]. split; [exact A2|exact I].
Qed.
Lemma rows_of_reorder s i : rows_of_input (reorder_input s i) = option_map (reorder s) (rows_of_input i).
Proof. destruct i; reflexivity. Qed.

Lemma matrices_orel m osplit sizes d s x : describes osplit sizes -> built_for sizes (fn_backflow m) -> ions_fit d (fn_streams m) ->
  keeps_spins sizes s -> (0 < list_sum sizes)%nat -> shape2 (list_sum sizes) d x ->
  orel (fn_ndet m) (block_signs sizes s) (ferminet_orbital_matrices m x osplit) (ferminet_orbital_matrices m (reorder s x) osplit).
Proof.
  intros D B Fi K N Sx. pose proof Sx as (L & _). unfold ferminet_orbital_matrices.
  rewrite (input_streams_equivariant (fn_streams m) s x) by (rewrite L; apply K).
  destruct (compute_input_streams (fn_streams m) x) as (((i1, i2), r1), r2) eqn:E.
  destruct (streams_shape _ _ _ _ Sx Fi _ _ _ _ E) as (S1 & (d2 & S2) & S3 & _). rewrite rows_of_reorder.
  destruct (rows_of_input i1) as [x1|]; [|exact I]. destruct (S1 x1 eq_refl) as (d1 & Sx1). cbn [option_map bind_opt]. unfold check.
  rewrite reorder_length. destruct (backflow_ok (fn_backflow m) (length x)); [|exact I]. cbv zeta.
  destruct (norbitals_per_split (fn_full_det m) (length x) osplit) as [norbs|]; [|exact I]. cbn [bind_opt].
  rewrite (backflow_equivariant (fn_backflow m) sizes s x1 i2 d1 d2 B K N Sx1 S2).
  apply (eval_orel m osplit norbs sizes); try assumption.
  destruct (backflow_shape (fn_backflow m) sizes x1 i2 d1 d2 B Sx1 S2) as (d' & Sb). apply Sb.
Qed.

Lemma ferminet_antisymmetric m sizes d s x : fits sizes d m -> keeps_spins sizes s -> (0 < list_sum sizes)%nat -> shape2 (list_sum sizes) d x ->
  ferminet_call m (reorder s x) = option_map (signed (sign_of (list_sum sizes) s)) (ferminet_call m x).
Proof.
  intros (D & B & Fi) K N Sx. unfold ferminet_call. rewrite <- (block_signs_prod sizes s K). apply psi_orel.
  apply (matrices_orel m (fn_split m) sizes d); assumption.
Qed.
