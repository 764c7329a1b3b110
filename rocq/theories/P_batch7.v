(** The batched FermiNet: the determinant-function modes and the whole call. *)
From Coq Require Import Reals List Bool Arith Lia.
From Verif Require Import XReal M_slog M_models M_antisym M_construct M_tensor M_batch P_tab P_batch P_batch2 P_batch3 P_batch4 P_batch5 P_batch6.
Import ListNotations.
Local Open Scope nat_scope.

Section Batch7.
Context (B b : list nat) (Hb : inb b B).
Notation R1 := (R1 B b).

(** A number per walker. *)
Definition R0 (x : tensor) (v : xr) : Prop := shape x = B /\ entry x b = v.

Lemma linalg_det_square q (l : arr2) : length l = q -> (forall r, In r l -> length r = q) -> exists v, linalg_det l = Some v.
Proof.
  intros L W. unfold linalg_det. replace (is_square l) with true; [eexists; reflexivity|]. symmetry. unfold is_square. apply forallb_forall. intros r Hr. rewrite (W r Hr), L, Nat.eqb_refl. reflexivity.
Qed.
Lemma det_R D q y l : RDet B b D q y l -> D <> 0 -> (forall k, k < D -> length (nth k l []) = q) ->
  exists x x' vs, nd_det y = Some x /\ nd_move_to_last x = Some x' /\ R1 x' vs /\ sequence (map linalg_det l) = Some vs /\ length vs = D.
Proof.
  intros [L H] HD SQ. destruct (H 0 ltac:(lia)) as [S0 _]. rewrite SQ in S0 by lia.
  unfold nd_det. rewrite S0, Nat.eqb_refl.
  set (value := fun i => match linalg_det (matrix_at y q q i) with Some v => v | None => NaN end).
  eexists _, _, (tab D (fun k => value (b ++ [k]))). split; [reflexivity|].
  assert (MV : nd_move_to_last {| shape := B ++ [D]; entry := value |} = Some {| shape := D :: B; entry := fun i => value (tl i ++ [hd 0 i]) |}).
  { unfold nd_move_to_last. cbn [shape]. destruct (B ++ [D]) as [|a s] eqn:E; [destruct B; discriminate|]. rewrite <- E, last_last, removelast_last. reflexivity. }
  split; [exact MV|]. split; [|split; [|apply tab_length]].
  - apply (R1_make B b D _ _ (fun k => value (b ++ [k]))); reflexivity.
  - transitivity (sequence (map linalg_det (tab D (fun k => nth k l [])))); [f_equal; f_equal; rewrite <- L; apply list_tab|].
    unfold tab. rewrite map_map. apply sequence_all. intros k Hk. apply in_seq in Hk. unfold value.
    destruct (H k ltac:(lia)) as [_ E]. rewrite (SQ k ltac:(lia)) in E. unfold matrix_at.
    replace (map (fun r => map (fun c => entry y (c :: r :: b ++ [k])) (seq 0 q)) (seq 0 q)) with (nth k l []) by exact E.
    destruct (linalg_det_square q (nth k l [])) as [v Ev]; [apply SQ; lia| |rewrite Ev; reflexivity].
    intros r Hr. exact (R2_row_length _ _ _ _ _ (H k ltac:(lia)) r Hr).
Qed.
Lemma dets_R D ts ls qs : Forall2 (fun t lq => RDet B b D (snd lq) t (fst lq) /\ forall k, k < D -> length (nth k (fst lq) []) = snd lq) ts (combine ls qs) ->
  length ls = length qs -> D <> 0 ->
  exists ds fs vss, sequence (map nd_det ts) = Some ds /\ sequence (map nd_move_to_last ds) = Some fs /\ Forall2 R1 fs vss /\
    sequence (map (fun o => sequence (map linalg_det o)) ls) = Some vss /\ (forall v, In v vss -> length v = D) /\ length vss = length ls.
Proof.
  intros H LQ HD. revert ts qs H LQ. induction ls as [|l ls IH]; intros ts [|q qs] H LQ; try discriminate.
  - inversion H; subst. exists [], [], []. repeat split; try constructor; intros v [].
  - cbn [combine] in H. inversion H as [|t ? ts' ? [Ht Hq] Hts]; subst. cbn [fst snd] in *. destruct (det_R D q t l Ht HD Hq) as (x & x' & vs & Ex & Ex' & Rx & Es & Lv).
    destruct (IH ts' qs Hts) as (ds & fs & vss & E1 & E2 & E3 & E4 & E5 & E6); [cbn in LQ; lia|].
    exists (x :: ds), (x' :: fs), (vs :: vss). cbn [map sequence]. rewrite Ex, E1. cbn [map sequence]. rewrite Ex', E2, Es, E4. split; [reflexivity|]. split; [reflexivity|]. split; [constructor; assumption|]. split; [reflexivity|]. split; [intros v [<-|Hv]; [exact Lv|apply E5; exact Hv]|cbn [length]; lia].
Qed.

Lemma squeeze_R x v : R1 x [v] -> exists y, nd_squeeze_last x = Some y /\ R0 y v.
Proof. intros [S E]. unfold nd_squeeze_last. cbn [length] in S. rewrite S. eexists; split; [reflexivity|]. split; [reflexivity|]. cbn [entry]. cbn in E. injection E as E. symmetry; exact E. Qed.
Lemma sum_R x l : R1 x l -> exists y, nd_reduce xsum x 1 false = Some y /\ R0 y (xsum l).
Proof.
  intros [S E]. unfold nd_reduce, axis_size. rewrite S. cbn [nth_error bind_opt Nat.sub drop_at firstn skipn app]. eexists; split; [reflexivity|]. split; [reflexivity|]. cbn [entry]. f_equal. rewrite E at 2. reflexivity.
Qed.

Lemma stack_R D ts ls : Forall2 R1 ts ls -> (forall l, In l ls -> length l = D) -> ls <> [] ->
  exists y z, nd_stack_last ts = Some y /\ nd_reduce xprod y 1 false = Some z /\ R1 z (map (fun k => xprod (map (fun d => nth k d (Fin 0)) ls)) (seq 0 D)).
Proof.
  intros H W NE. assert (SH : forall t, In t ts -> shape t = D :: B).
  { clear NE. induction H as [|t l ts ls Ht _ IH]; intros u; [intros []|]. intros [<-|Hu]; [rewrite (proj1 Ht), (W l) by (left; reflexivity); reflexivity|apply IH; [intros; apply W; right; assumption|exact Hu]]. }
  assert (LT := Forall2_len _ _ _ H).
  destruct ts as [|t ts]; [destruct ls; [contradiction|discriminate]|]. unfold nd_stack_last.
  match goal with |- context[forallb ?g ?q] => assert (FB : forallb g q = true) end.
  { apply forallb_forall. intros y Hy. rewrite (SH y Hy), (SH t) by (left; reflexivity). apply list_eqb_refl. }
  rewrite FB, (SH t) by (left; reflexivity). eexists _, _. split; [reflexivity|]. unfold nd_reduce, axis_size. cbn [shape nth_error bind_opt Nat.sub drop_at firstn skipn app]. split; [reflexivity|].
  apply (R1_make B b D _ _ (fun k => xprod (map (fun d => nth k d (Fin 0)) ls))); [reflexivity|reflexivity|].
  intros k Hk. cbn [entry]. f_equal. unfold along. cbn [insert_at firstn skipn app]. cbn [entry hd tl].
  transitivity (map (fun u => entry u (k :: b)) (t :: ts)).
  - clear -t ts. transitivity (map (fun u => entry u (k :: b)) (tab (length (t :: ts)) (fun s => nth s (t :: ts) t))); [|rewrite <- list_tab; reflexivity].
    rewrite map_tab. apply tab_ext. intros s Hs. rewrite (nth_error_nth' _ t Hs). reflexivity.
  - clear -H W Hk. induction H as [|u l us ls Hu _ IH]; [reflexivity|]. cbn [map]. f_equal; [apply (R1_entry _ _ _ _ _ Hu); rewrite W by (left; reflexivity); exact Hk|apply IH; intros; apply W; right; assumption].
Qed.

Lemma parallel_R r D ts ls : Forall2 R1 ts ls -> (forall l, In l ls -> length l = D) -> ls <> [] ->
  exists y, nd_psi_parallel_even r D ts = Some y /\ R0 y (psi_parallel_even D (det_resnet_fn r) ls).
Proof.
  intros H W NE. unfold nd_psi_parallel_even, psi_parallel_even. destruct (invariant_R B b Hb r D ts ls H NE) as [e [Ee Re]]. rewrite Ee. cbn [bind_opt].
  destruct (stack_R D ts ls H W NE) as (y & z & Ey & Ez & Rz). rewrite Ey. cbn [bind_opt]. rewrite Ez. cbn [bind_opt].
  destruct (op_R1 B b Hb xmul _ _ _ _ Rz Re) as [u [Eu Ru]]; [rewrite map_length, seq_length, invariant_length; reflexivity|]. rewrite Eu. cbn [bind_opt].
  apply sum_R. exact Ru.
Qed.

Lemma pair_entry D (k : nat) : k < D * D -> unravel (D :: D :: B) (ravel (D * D :: B) (k :: b)) = (k mod D) :: (k / D) :: b.
Proof.
  intros Hk. assert (DD : D <> 0) by (intros ->; cbn in Hk; lia). cbn [ravel unravel]. set (v := ravel B b).
  replace (k + D * D * v) with (k + (D * v) * D) by ring. rewrite Nat.mod_add, Nat.div_add by exact DD. f_equal.
  assert (K : k / D < D) by (apply Nat.div_lt_upper_bound; [exact DD|exact Hk]).
  replace (k / D + D * v) with (k / D + v * D) by ring. rewrite Nat.mod_add, Nat.div_add by exact DD. rewrite (Nat.mod_small (k / D) D K), (Nat.div_small (k / D) D K). f_equal. cbn [Nat.add]. unfold v. apply unravel_ravel; exact Hb.
Qed.
Lemma pairwise_R r D ts ls : Forall2 R1 ts ls -> (forall l, In l ls -> length l = D) ->
  orel R0 (nd_psi_pairwise_even r D ts) (psi_pairwise_even D (det_resnet_fn r) ls).
Proof.
  intros H W. destruct H as [|up lu ts ls Hu H]; [exact Logic.I|]. destruct H as [|down ld ts ls Hd H]; [exact Logic.I|]. destruct H as [|? ? ts ls ? H]; [|exact Logic.I].
  unfold nd_psi_pairwise_even, psi_pairwise_even. cbv zeta. destruct (invariant_R B b Hb r (D * D) [up; down] [lu; ld]) as [e [Ee Re]]; [constructor; [exact Hu|constructor; [exact Hd|constructor]]|discriminate|]. rewrite Ee. cbn [bind_opt].
  assert (LU : length lu = D) by (apply W; left; reflexivity). assert (LD : length ld = D) by (apply W; right; left; reflexivity).
  assert (SU : shape up = D :: B) by (rewrite <- LU; apply Hu). assert (SD : shape down = D :: B) by (rewrite <- LD; apply Hd).
  unfold nd_expand_dims. rewrite SU, SD. cbn [length Nat.leb bind_opt insert_at firstn skipn app].
  unfold nd_op at 1. cbn [shape]. rewrite (bshape_l1 _ _ _ _ (bshape_r1 _ _ _ _ (bshape_refl B))). cbn [bind_opt shape].
  unfold nd_reshape. cbn [shape]. assert (SZ : size_of (D * D :: B) = size_of (D :: D :: B)) by (cbn [size_of fold_right]; ring). rewrite SZ, Nat.eqb_refl. cbn [bind_opt].
  match goal with |- context[nd_op xmul ?p e] => assert (RP : R1 p (concat (map (fun u => map (fun d => xmul u d) ld) lu))) end.
  { apply (R1_make B b (D * D) _ _ (fun k => xmul (nth (k / D) lu (Fin 0)) (nth (k mod D) ld (Fin 0)))); [reflexivity| |].
    - rewrite (list_tab lu (Fin 0)) at 1. rewrite LU, map_tab. rewrite <- concat_tab with (f := fun i j => xmul (nth i lu (Fin 0)) (nth j ld (Fin 0))). f_equal. apply tab_ext; intros i Hi. rewrite (list_tab ld (Fin 0)) at 1. rewrite LD, map_tab. reflexivity.
    - intros k Hk. cbn [entry]. rewrite pair_entry by exact Hk. assert (DD : D <> 0) by (intros ->; cbn in Hk; lia).
      assert (K : k / D < D) by (apply Nat.div_lt_upper_bound; [exact DD|exact Hk]). assert (K' : k mod D < D) by (apply Nat.mod_upper_bound; exact DD).
      cbn [broadcast_index Nat.eqb drop_at firstn skipn app]. rewrite !one_or by assumption. rewrite (bindex_in B b Hb).
      rewrite (R1_entry _ _ _ _ _ Hu), (R1_entry _ _ _ _ _ Hd) by (rewrite ?LU, ?LD; assumption). reflexivity. }
  destruct (op_R1 B b Hb xmul _ _ _ _ RP Re) as [u [Eu Ru]].
  { rewrite invariant_length. rewrite <- LU at 1. rewrite <- LD. clear. induction lu as [|a l IH]; [reflexivity|]. cbn [map concat length]. rewrite app_length, map_length, IH. lia. }
  rewrite Eu. cbn [bind_opt]. destruct (sum_R _ _ Ru) as [y [Ey Ry]]. rewrite Ey. exact Ry.
Qed.

Lemma slog_R x v : R0 x v -> RVal B b (nd_map xsign x, nd_map (fun a => xlog (xabs a)) x) (array_to_slog v).
Proof. intros [S E]. split; [exact S|]. split; [exact S|]. cbn. rewrite E. split; reflexivity. Qed.
Lemma covariant_one r ls : exists v, make_array_list_fn_sign_covariant 1 (det_resnet_fn r 1) ls = [v].
Proof. unfold make_array_list_fn_sign_covariant, apply_sign_symmetry_to_fn. destruct (get_sign_orbit_for_list _ ls). eexists. reflexivity. Qed.

Lemma ferminet_R r m d x l : R2 B b d x l -> 0 < length l -> fn_det_fn m = option_map det_resnet_fn r -> ions_ok d (fn_streams m) ->
  (so_ion_pos (fn_streams m) = None \/ so_ei_norm (fn_streams m) = true) -> so_ion_pos (fn_streams m) <> Some [] ->
  blocks_ordered m (length l) -> attention_ok (fn_backflow m) ->
  orel (RVal B b) (nd_ferminet r m x) (ferminet_call m l).
Proof.
  intros H L0 DF IO EN NI [OS OB] AT.
  pose proof H as [S _]. unfold nd_ferminet, axis_size. rewrite S. cbn [nth_error bind_opt].
  destruct (streams_R B b Hb d (fn_streams m) x l H L0 IO EN) as (x1 & x2 & xr & w & d2 & rows & q & r_ei & r_ee & E1 & E2 & Rr & Lr & PS & ER & EL).
  rewrite E1. cbn [bind_opt]. unfold ferminet_call, ferminet_orbital_matrices. rewrite E2. cbn [rows_of_input bind_opt].
  pose proof (backflow_R2 B b Hb (fn_backflow m) w d2 x1 rows x2 q Rr ltac:(lia)) as BF. rewrite Lr in BF.
  specialize (BF (fun k Hk => ordered_proper _ _ (OB k Hk)) AT PS).
  destruct (backflow_ok (fn_backflow m) (length l)); cbn [check].
  2:{ rewrite BF. exact Logic.I. }
  destruct BF as (z & w' & Ez & Rz & Lz). rewrite Ez. cbn [bind_opt].
  destruct (norbitals_per_split (fn_full_det m) (length l) (fn_split m)) as [norbs|] eqn:EO; cbn [bind_opt]; [|exact Logic.I].
  set (stream := backflow (fn_backflow m) rows q) in *.
  assert (HY : exists nion, match xr, r_ei with None, None => True | Some y, Some q0 => R3 B b nion d y q0 /\ length q0 = length stream /\ 0 < nion | _, _ => False end).
  { unfold ei_rel in ER. destruct (so_ion_pos (fn_streams m)) as [ions|]; destruct xr, r_ei; try contradiction; [|exists 0; exact Logic.I]. exists (length ions). split; [exact ER|]. split; [congruence|]. destruct ions; [contradiction|cbn; lia]. }
  destruct HY as [nion HY].
  pose proof (eval_orbitals_R B b Hb m (fn_split m) norbs z d stream xr r_ei w' nion Rz HY) as EV. rewrite Lz in EV.
  destruct (Nat.eqb_spec (length norbs) (get_nsplits (fn_split m))) as [N|N]; cbn [andb] in EV; [|destruct EV as [-> ->]; exact Logic.I].
  destruct (splittable (fn_split m) (length l)) eqn:SP; cbn [andb] in EV; [|destruct EV as [-> ->]; exact Logic.I].
  destruct (Nat.eqb_spec (fn_ndet m) 0) as [Z|HD]; cbn [negb] in EV; [destruct EV as [-> ->]; exact Logic.I|].
  destruct EV as (ts & ls & ps & Et & El & [RO LO] & Ep & LP). rewrite Et, El. cbn [bind_opt].
  unfold psi_from_orbitals. rewrite DF.
  assert (NS : ls <> []) by (intros ->; pose proof (splittable_nsplits _ _ SP); cbn in LO; lia).
  pose proof (proj1 (splittable_points (fn_split m) (length l)) SP) as [idx EI].
  assert (LPS : map (@length vec) ps = map snd (bounds (length l) 0 idx)) by (rewrite (split_lengths (fn_split m) stream ps idx Ep) by (rewrite Lz; exact EI); rewrite Lz; reflexivity).
  assert (FIN : exists us vss qs, (if fn_full_det m then do c <- nd_concatenate ts 2; Some [c] else Some ts) = Some us /\
     (if fn_full_det m then [map (@concat vec) (determinant_slices ls (fn_ndet m))] else ls) = vss /\
     Forall2 (fun t lq => RDet B b (fn_ndet m) (snd lq) t (fst lq) /\ forall k, k < fn_ndet m -> length (nth k (fst lq) []) = snd lq) us (combine vss qs) /\ length vss = length qs /\ vss <> []).
  { destruct (fn_full_det m) eqn:FD.
    - cbn [norbitals_per_split] in EO. injection EO as <-.
      assert (RO' : Forall2 (RDet B b (fn_ndet m) (length l)) ts ls).
      { clear -RO LO. rewrite repeat_length in LO. revert ts RO. rewrite <- LO. clear LO. induction ls as [|a ls IH]; intros ts RO; cbn [length repeat combine] in RO; inversion RO; subst; constructor; [assumption|apply IH; assumption]. }
      destruct (concat_R B b _ _ _ _ RO' NS HD) as [y [Ey Ry]]. rewrite Ey. cbn [bind_opt].
      exists [y], [map (@concat vec) (determinant_slices ls (fn_ndet m))], [length l]. split; [reflexivity|]. split; [reflexivity|]. split; [|split; [reflexivity|discriminate]].
      constructor; [|constructor]. split; [exact Ry|]. cbn [fst snd]. intros k Hk. unfold determinant_slices. rewrite (nth_map0 _ _ _ []) by (rewrite map_length, seq_length; exact Hk). rewrite (nth_map0 _ _ _ 0) by (rewrite seq_length; exact Hk). rewrite seq_nth by exact Hk. cbn [Nat.add].
      rewrite length_concat_sum, map_map.
      transitivity (list_sum (map (@length vec) ps)).
      + f_equal. clear -LP Hk. induction LP as [|a c ls ps Ha _ IH]; [reflexivity|]. cbn [map]. f_equal; [apply Ha; exact Hk|exact IH].
      + rewrite LPS. apply (ordered_sizes _ _ _ OS EI).
    - exists ts, ls, norbs. split; [reflexivity|]. split; [reflexivity|]. split; [|auto].
      pose proof (ordered_norbs _ _ _ _ OS EI EO) as NB. rewrite <- LPS in NB. subst norbs. clear -RO LP.
      revert ts RO. induction LP as [|a c ls ps Ha _ IH]; intros ts RO; cbn [map combine] in *; inversion RO; subst; constructor; [split; [assumption|exact Ha]|apply IH; assumption]. }
  destruct FIN as (us & vss & qs & EU & EVS & RU & LU & NU). rewrite EU, EVS. cbn [bind_opt].
  destruct r as [r|]; cbn [option_map].
  - destruct (dets_R _ _ _ _ RU LU HD) as (ds & fs & vs & E3 & E4 & RF & E5 & WV & LV). rewrite E3. cbn [bind_opt]. rewrite E4, E5. cbn [bind_opt].
    assert (NV : vs <> []) by (intros ->; destruct vss; [contradiction|discriminate]).
    destruct (fn_mode m).
    + destruct (covariant_R B b Hb r 1 fs vs RF NV) as [y [Ey Ry]]. rewrite Ey. cbn [bind_opt]. destruct (covariant_one r vs) as [v EV]. rewrite EV in Ry |- *. cbn [nth].
      destruct (squeeze_R _ _ Ry) as [u [Eu Ru]]. rewrite Eu. cbn [bind_opt orel]. apply slog_R. exact Ru.
    + destruct (parallel_R r _ fs vs RF WV NV) as [y [Ey Ry]]. rewrite Ey. cbn [bind_opt orel]. apply slog_R. exact Ry.
    + pose proof (pairwise_R r _ fs vs RF WV) as Q. destruct (nd_psi_pairwise_even r (fn_ndet m) fs) as [y|], (psi_pairwise_even (fn_ndet m) (det_resnet_fn r) vs) as [v|]; try contradiction; cbn [bind_opt orel]; [|exact Logic.I]. apply slog_R. exact Q.
  - destruct (slogdet_product_R B b Hb _ _ _ _ RU LU HD NU) as (sl & vs & Es & Ev & RS). rewrite Es, Ev. cbn [bind_opt].
    destruct (slog_sum_R B b Hb _ _ _ RS HD) as (zz & v & Ezz & Evv & RV). rewrite Ezz, Evv. exact RV.
Qed.
End Batch7.
