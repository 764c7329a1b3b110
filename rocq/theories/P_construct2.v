(** * Proofs: coincident electrons, and when a FermiNet has a value *)
From Coq Require Import Reals List Bool Arith Lia Lra Permutation ZArith.
From Verif Require Import XReal S_physics M_slog M_models M_antisym M_construct S_models S_antisym S_construct P_xsum P_slog P_split P_equiv P_equiv2 P_jastrow P_models P_inv P_parity P_flips P_sgn P_antisym P_antieq P_leibniz P_signsym P_construct.
Import ListNotations.
Local Open Scope R_scope.

(** ** Sign-log values of determinants *)
Definition proper (p : slog) : Prop := p = (NaN, NaN) \/ exists v, p = slog_of v.
Lemma proper_multiply p q : proper p -> proper q -> proper (slog_multiply p q).
Proof.
  intros [->|(v & ->)] [->|(w & ->)].
  - left. reflexivity.
  - left. reflexivity.
  - left. unfold slog_multiply. cbn [fst snd]. rewrite xmul_nan_r, xadd_nan_r. reflexivity.
  - right. exists (v * w). apply slog_multiply_of.
Qed.
Lemma proper_slogdet m p : linalg_slogdet m = Some p -> proper p.
Proof.
  unfold linalg_slogdet, linalg_det. destruct (is_square m); [|discriminate]. cbn [option_map]. intros E. injection E as <-.
  destruct (forallb (forallb isfin) m); [right; eexists; apply to_slog_fin|left; reflexivity].
Qed.
Lemma sequence_forall {A B} (f : A -> option B) (Q : B -> Prop) l r : (forall a b, f a = Some b -> Q b) -> sequence (map f l) = Some r -> Forall Q r.
Proof.
  intros H. revert r. induction l as [|a l IH]; cbn [map sequence]; intros r E; [injection E as <-; constructor|].
  destruct (f a) as [b|] eqn:Ef; [|discriminate]. destruct (sequence (map f l)) as [r'|]; [|discriminate]. injection E as <-.
  constructor; [apply (H a); exact Ef|apply IH; reflexivity].
Qed.
Lemma proper_reduce l p : Forall proper l -> reduce slog_multiply l = Some p -> proper p.
Proof.
  destruct l as [|a l]; [discriminate|]. intros H E. injection E as <-. inversion H as [|? ? H1 H2]; subst. clear H. revert a H1.
  induction H2 as [|b l Hb _ IH]; intros a Ha; cbn [fold_left]; [exact Ha|]. apply IH. apply proper_multiply; assumption.
Qed.
Lemma proper_product L p : slogdet_product L = Some p -> proper p.
Proof.
  unfold slogdet_product. destruct (sequence (map linalg_slogdet L)) as [l|] eqn:E; [|discriminate]. apply proper_reduce.
  apply (sequence_forall linalg_slogdet proper L); [intros a b; apply proper_slogdet|exact E].
Qed.
Lemma proper_opposite p : proper p -> p = signed (-1) p -> p = (NaN, NaN) \/ p = slog_of 0.
Proof.
  intros [->|(v & ->)] H; [left; reflexivity|]. right. apply (f_equal fst) in H. unfold signed in H. cbn [fst] in H.
  destruct (Req_dec v 0) as [->|N]; [reflexivity|]. exfalso. revert H. unfold slog_of. unfold sg.
  destruct (Rlt_dec 0 v), (Rlt_dec v 0); destruct (Req_EM_T v 0); cbn; intros H; injection H; lra.
Qed.
Lemma log_linear_exp_vanishing l p : Forall (fun q => q = (NaN, NaN) \/ q = slog_of 0) l -> log_linear_exp l = Some p -> p = (NaN, NaN).
Proof.
  intros H E. destruct l as [|a l0] eqn:El; [discriminate E|]. rewrite <- El in *.
  destruct (Exists_dec (fun q => q = (NaN, NaN)) l) as [X|X].
  - intros q. destruct q as (u, v). destruct u, v; try (right; congruence). left; reflexivity.
  - rewrite log_linear_exp_spec in E. rewrite El in E at 1. cbv zeta in E. injection E as <-.
    set (mm := fold_right xmax MInf (map snd l)).
    assert (S : xsum (map (fun q => xmul (fst q) (xexp (xsub (snd q) mm))) l) = NaN).
    { apply xsum_nan. apply Exists_exists in X. destruct X as (q & Hq & ->). apply in_map_iff. exists (NaN, NaN). split; [reflexivity|exact Hq]. }
    rewrite S. reflexivity.
  - assert (Z : l = map slog_of (repeat 0 (length l))).
    { clear -H X. induction H as [|q l Hq _ IH]; [reflexivity|]. cbn [length repeat map]. f_equal.
      - destruct Hq as [Hq|Hq]; [exfalso; apply X; left; exact Hq|exact Hq].
      - apply IH. intros Y. apply X. right. exact Y. }
    rewrite Z in E. rewrite log_linear_exp_zeros in E.
    + injection E as <-. reflexivity.
    + rewrite El. discriminate.
    + intros x Hx. apply repeat_spec in Hx. exact Hx.
Qed.

(** ** Same-spin coincidence *)
Lemma psi_nan m sgs O p : oflips (fn_ndet m) sgs O O -> lprod sgs = -1 -> fn_det_fn m = None -> psi_from_orbitals m O = Some p -> p = (NaN, NaN).
Proof.
  intros H0 E0 Fd. unfold psi_from_orbitals. cbv zeta. rewrite Fd. set (nd := fn_ndet m) in *.
  assert (G : exists ts, oflips nd ts (if fn_full_det m then [map (@concat vec) (determinant_slices O nd)] else O)
                              (if fn_full_det m then [map (@concat vec) (determinant_slices O nd)] else O) /\ lprod ts = -1).
  { destruct (fn_full_det m); [exists [lprod sgs]; split; [apply oflips_full; exact H0|cbn; rewrite E0; ring]|exists sgs; split; assumption]. }
  destruct G as (ts & H & El). set (P := if fn_full_det m then [map (@concat vec) (determinant_slices O nd)] else O) in *. clearbody P.
  destruct (sequence (map slogdet_product (determinant_slices P nd))) as [l|] eqn:Es; [|discriminate]. cbn [bind_opt].
  apply log_linear_exp_vanishing. apply Forall_forall. intros q Hq. apply (In_nth _ _ (NaN, NaN)) in Hq. destruct Hq as (k & Hk & <-).
  pose proof (sequence_length _ _ Es) as L. rewrite map_length in L. assert (Hd : length (determinant_slices P nd) = nd) by (unfold determinant_slices; rewrite map_length; apply seq_length).
  pose proof (sequence_nth _ _ k (NaN, NaN) Es ltac:(rewrite map_length; lia)) as Ek.
  rewrite (nth_indep _ None (slogdet_product [])) in Ek by (rewrite map_length; lia). rewrite map_nth in Ek. unfold determinant_slices in Ek.
  rewrite (nth_map_seq (fun k => map (fun o => nth k o []) _)) in Ek by lia.
  apply proper_opposite; [apply (proper_product _ _ Ek)|].
  pose proof (slogdet_product_flips _ _ _ (oflips_slice nd ts P P k H ltac:(lia))) as F. rewrite El, Ek in F. cbn [option_map] in F. injection F as F. exact F.
Qed.
Lemma slog_opposite v : array_to_slog v = signed (-1) (array_to_slog v) -> (v = Fin 0 /\ array_to_slog v = (Fin 0, MInf)) \/ (v = NaN /\ array_to_slog v = (NaN, NaN)).
Proof.
  destruct v as [a| | |]; intros H.
  - left. assert (a = 0). { apply (f_equal fst) in H. cbn in H. destruct (Rlt_dec 0 a), (Rlt_dec a 0); injection H; lra. }
    subst. split; [reflexivity|]. rewrite to_slog_fin. unfold slog_of. destruct (Req_EM_T 0 0) as [_|N]; [|congruence]. destruct (Rlt_dec 0 0) as [Q|_]; [lra|]. reflexivity.
  - exfalso. apply (f_equal fst) in H. cbn in H. injection H; lra.
  - exfalso. apply (f_equal fst) in H. cbn in H. injection H; lra.
  - right. split; reflexivity.
Qed.

(** The determinant-function modes: the value before the last conversion. *)
Definition psi_value (m : ferminet) (fn : nat -> list vec -> vec) (orbitals0 : list (list arr2)) : option xr :=
  let orbitals := if fn_full_det m then [map (@concat vec) (determinant_slices orbitals0 (fn_ndet m))] else orbitals0 in
  bind_opt (sequence (map (fun o => sequence (map linalg_det o)) orbitals)) (fun fn_inputs =>
    match fn_mode m with
    | SIGN_COVARIANCE => Some (nth 0 (make_array_list_fn_sign_covariant 1 (fn 1%nat) fn_inputs) (Fin 0))
    | PARALLEL_EVEN => Some (psi_parallel_even (fn_ndet m) fn fn_inputs)
    | PAIRWISE_EVEN => psi_pairwise_even (fn_ndet m) fn fn_inputs
    end).
Lemma psi_value_spec m fn O : fn_det_fn m = Some fn -> psi_from_orbitals m O = option_map array_to_slog (psi_value m fn O).
Proof.
  intros E. unfold psi_from_orbitals, psi_value. cbv zeta. rewrite E.
  destruct (sequence (map (fun o => sequence (map linalg_det o)) _)) as [v|]; [|reflexivity]. cbn [bind_opt].
  destruct (fn_mode m); [reflexivity|reflexivity|]. destruct (psi_pairwise_even (fn_ndet m) fn v); reflexivity.
Qed.
Lemma psi_zero_or_nan m fn sgs O p : oflips (fn_ndet m) sgs O O -> lprod sgs = -1 -> fn_det_fn m = Some fn -> psi_from_orbitals m O = Some p ->
  exists v, psi_value m fn O = Some v /\ ((v = Fin 0 /\ p = (Fin 0, MInf)) \/ (v = NaN /\ p = (NaN, NaN))).
Proof.
  intros H E Fd Ep. pose proof (psi_flips m sgs O O H) as F. rewrite E, Ep in F. cbn [option_map] in F. injection F as F.
  rewrite (psi_value_spec m fn O Fd) in Ep. destruct (psi_value m fn O) as [v|]; [|discriminate]. injection Ep as <-. exists v. split; [reflexivity|]. apply slog_opposite. exact F.
Qed.

(** ** Finite values *)
Definition fins (l : list xr) : Prop := Forall (fun a => isfin a = true) l.
Lemma isfin_xmul a b : isfin a = true -> isfin b = true -> isfin (xmul a b) = true.
Proof. destruct a, b; try discriminate. reflexivity. Qed.
Lemma isfin_xprod l : fins l -> isfin (xprod l) = true.
Proof. induction 1; [reflexivity|]. apply isfin_xmul; assumption. Qed.
Lemma fins_nth l k : fins l -> isfin (nth k l (Fin 0)) = true.
Proof. intros H. destruct (lt_dec k (length l)) as [Hk|Hk]; [|rewrite nth_overflow by lia; reflexivity]. unfold fins in H. rewrite Forall_forall in H. apply H, nth_In, Hk. Qed.
Lemma fins_zipw_mul a b : fins a -> fins b -> fins (zipw xmul a b).
Proof.
  intros Ha. revert b. induction Ha as [|x a Hx _ IH]; intros b Hb; [constructor|]. destruct Hb as [|y b Hy Hb]; [constructor|].
  unfold zipw. cbn [combine map fst snd]. constructor; [apply isfin_xmul; assumption|apply IH; exact Hb].
Qed.
Lemma det_finite a b : linalg_det a = Some b -> all_finite a -> isfin b = true.
Proof.
  unfold linalg_det. destruct (is_square a); [|discriminate]. intros E H. injection E as <-.
  assert (F : forallb (forallb isfin) a = true).
  { apply forallb_forall. intros r Hr. apply forallb_forall. unfold all_finite in H. rewrite Forall_forall in H. specialize (H r Hr). rewrite Forall_forall in H. exact H. }
  rewrite F. reflexivity.
Qed.
Lemma sequence_forall2 {A B} (f : A -> option B) (P : A -> Prop) (Q : B -> Prop) l r : (forall a b, f a = Some b -> P a -> Q b) -> Forall P l ->
  sequence (map f l) = Some r -> Forall Q r.
Proof.
  intros H HP. revert r. induction HP as [|a l Ha _ IH]; cbn [map sequence]; intros r E; [injection E as <-; constructor|].
  destruct (f a) as [b|] eqn:Ef; [|discriminate]. destruct (sequence (map f l)) as [r'|]; [|discriminate]. injection E as <-.
  constructor; [apply (H a); assumption|apply IH; reflexivity].
Qed.
Lemma dets_finite O v : Forall (Forall all_finite) O -> sequence (map (fun o => sequence (map linalg_det o)) O) = Some v -> Forall fins v.
Proof.
  intros H. apply (sequence_forall2 (fun o => sequence (map linalg_det o)) (Forall all_finite)); [|exact H].
  intros a b E Ha. apply (sequence_forall2 linalg_det all_finite _ a); [intros c d Ec Hc; apply (det_finite c d Ec Hc)|exact Ha|exact E].
Qed.
Lemma slices_finite O nd : Forall (Forall all_finite) O -> Forall (Forall all_finite) (determinant_slices O nd).
Proof.
  intros H. unfold determinant_slices. apply Forall_map, Forall_forall. intros k _. apply Forall_map. eapply Forall_impl; [|exact H]. intros o Ho.
  destruct (lt_dec k (length o)) as [Hk|Hk]; [rewrite Forall_forall in Ho; apply Ho, nth_In, Hk|rewrite nth_overflow by lia; constructor].
Qed.
Lemma concat_finite L : Forall all_finite L -> all_finite (concat L).
Proof. induction 1 as [|a L Ha _ IH]; [constructor|]. cbn [concat]. apply Forall_app. split; assumption. Qed.
Definition finite_det_fn (fn : nat -> list vec -> vec) : Prop := forall n v, Forall fins v -> fins (fn n v).
Lemma fins_vscale a v : isfin a = true -> fins v -> fins (vscale a v).
Proof. intros Ha H. unfold vscale. apply Forall_map. eapply Forall_impl; [|exact H]. intros b Hb. apply isfin_xmul; assumption. Qed.
Lemma symmetry_finite v k : Forall fins v -> Forall fins (symmetry (fun s => vscale (Fin s)) v k).
Proof.
  intros H. unfold symmetry. apply Forall_forall. intros u Hu. apply (In_nth _ _ []) in Hu. destruct Hu as (i & Hi & <-). rewrite mapi_length in Hi.
  rewrite (mapi_nth _ _ i [] []) by exact Hi. apply fins_vscale; [reflexivity|]. rewrite Forall_forall in H. apply H, nth_In, Hi.
Qed.

Lemma vsum_finite dout l : Forall fins l -> fins (vsum dout l).
Proof.
  intros H. unfold vsum. apply Forall_map, Forall_forall. intros c _. apply isfin_xsum. apply Forall_map. eapply Forall_impl; [|exact H].
  intros v Hv. apply fins_nth. exact Hv.
Qed.
Lemma covariant_finite dout fn v : (forall w, Forall fins w -> fins (fn w)) -> Forall fins v -> fins (make_array_list_fn_sign_covariant dout fn v).
Proof.
  intros H Hv. unfold make_array_list_fn_sign_covariant. rewrite apply_spec. apply vsum_finite. unfold results. apply Forall_map, Forall_forall. intros k _.
  apply fins_vscale; [reflexivity|]. apply H. apply symmetry_finite. exact Hv.
Qed.
Lemma invariant_finite dout fn v : (forall w, Forall fins w -> fins (fn w)) -> Forall fins v -> fins (make_array_list_fn_sign_invariant dout fn v).
Proof.
  intros H Hv. unfold make_array_list_fn_sign_invariant. rewrite apply_spec. apply vsum_finite. unfold results. apply Forall_map, Forall_forall. intros k _.
  apply H. apply symmetry_finite. exact Hv.
Qed.
Lemma some_inj {A} (a b : A) : Some a = Some b -> a = b.
Proof. congruence. Qed.
Lemma psi_value_finite m fn O v : finite_det_fn fn -> Forall (Forall all_finite) O -> psi_value m fn O = Some v -> isfin v = true.
Proof.
  intros Ff HO. unfold psi_value. cbv zeta. set (P := if fn_full_det m then _ else _).
  assert (HP : Forall (Forall all_finite) P).
  { unfold P. destruct (fn_full_det m); [|exact HO]. constructor; [|constructor]. apply Forall_map. eapply Forall_impl; [|apply slices_finite; exact HO]. intros L. apply concat_finite. }
  destruct (sequence (map (fun o => sequence (map linalg_det o)) P)) as [w|] eqn:Ew; [|discriminate]. pose proof (dets_finite P w HP Ew) as Hw. cbn [bind_opt].
  destruct (fn_mode m).
  - intros E. apply some_inj in E. subst v. apply fins_nth. apply covariant_finite; [|exact Hw]. intros u. apply Ff.
  - intros E. apply some_inj in E. subst v. apply isfin_xsum. apply fins_zipw_mul; [|apply invariant_finite; [intros u; apply Ff|exact Hw]].
    apply Forall_map, Forall_forall. intros k _. apply isfin_xprod. apply Forall_map. eapply Forall_impl; [|exact Hw]. intros u Hu. apply fins_nth. exact Hu.
  - unfold psi_pairwise_even. destruct w as [|up [|down [|]]]; try discriminate. intros E. apply some_inj in E. subst v. apply isfin_xsum.
    apply fins_zipw_mul; [|apply invariant_finite; [intros u; apply Ff|exact Hw]]. inversion Hw as [|? ? Hu Hr]; subst. inversion Hr as [|? ? Hd _]; subst.
    apply Forall_concat. apply Forall_map. eapply Forall_impl; [|exact Hu]. intros a Ha. apply Forall_map. eapply Forall_impl; [|exact Hd]. intros b Hb. apply isfin_xmul; assumption.
Qed.

(** ** Shapes of the orbital matrices *)
Definition oshape (nd : nat) : list (nat * nat) -> list (list arr2) -> Prop :=
  Forall2 (fun rc o => length o = nd /\ forall k, (k < nd)%nat -> shape2 (fst rc) (snd rc) (nth k o [])).
Lemma square_some n m : shape2 n n m -> exists v, linalg_det m = Some v.
Proof.
  intros (L & F). unfold linalg_det. assert (E : is_square m = true).
  { apply forallb_forall. intros r Hr. rewrite Forall_forall in F. rewrite (F r Hr), L. apply Nat.eqb_refl. }
  rewrite E. eexists. reflexivity.
Qed.
Lemma sequence_total {A B} (f : A -> option B) (l : list A) : (forall a, In a l -> exists b, f a = Some b) -> exists r, sequence (map f l) = Some r.
Proof.
  induction l as [|a l IH]; intros H; [eexists; reflexivity|]. cbn [map sequence]. destruct (H a (or_introl eq_refl)) as (b & ->).
  destruct IH as (r & ->); [intros c Hc; apply H; right; exact Hc|]. eexists. reflexivity.
Qed.
Lemma oshape_slice nd rcs O k : oshape nd rcs O -> (k < nd)%nat -> Forall2 (fun rc m => shape2 (fst rc) (snd rc) m) rcs (map (fun o => nth k o []) O).
Proof. intros H Hk. induction H as [|rc o rcs O (L & F) _ IH]; [constructor|]. cbn [map]. constructor; [apply F; exact Hk|exact IH]. Qed.
Lemma concat_shape w rs L : Forall2 (fun r m => shape2 r w m) rs L -> shape2 (list_sum rs) w (concat L).
Proof.
  induction 1 as [|r m rs L (Lm & Fm) _ (LI & FI)]; [split; [reflexivity|constructor]|]. cbn [concat]. split.
  - rewrite app_length, Lm, LI. reflexivity.
  - apply Forall_app. split; assumption.
Qed.
Definition shapes_of (full : bool) (sizes : list nat) : list (nat * nat) := map (fun n => (n, if full then list_sum sizes else n)) sizes.
Lemma oshape_squares m sizes O : oshape (fn_ndet m) (shapes_of (fn_full_det m) sizes) O ->
  let P := if fn_full_det m then [map (@concat vec) (determinant_slices O (fn_ndet m))] else O in
  exists ns, oshape (fn_ndet m) (map (fun n => (n, n)) ns) P /\ length ns = (if fn_full_det m then 1%nat else length sizes).
Proof.
  intros H. cbv zeta. unfold shapes_of in H. destruct (fn_full_det m).
  - exists [list_sum sizes]. split; [|reflexivity]. constructor; [|constructor]. unfold determinant_slices. rewrite !map_length, seq_length. split; [reflexivity|].
    intros k Hk. rewrite map_map. rewrite (nth_map_seq (fun k => concat (map (fun o => nth k o []) O))) by exact Hk. cbn [fst snd].
    apply concat_shape. pose proof (oshape_slice _ _ _ k H Hk) as S. remember (list_sum sizes) as w. clear -S. revert S. generalize (map (fun o : list arr2 => nth k o []) O) as L.
    induction sizes as [|n sizes IH]; intros L S; inversion S; subst; constructor; [assumption|]. apply IH. assumption.
  - exists sizes. split; [exact H|reflexivity].
Qed.
Lemma Forall2_len {A B} (Q : A -> B -> Prop) l l' : Forall2 Q l l' -> length l = length l'.
Proof. induction 1; cbn; congruence. Qed.
Lemma psi_total m sizes O : oshape (fn_ndet m) (shapes_of (fn_full_det m) sizes) O -> sizes <> [] -> (0 < fn_ndet m)%nat ->
  (forall fn, fn_det_fn m = Some fn -> fn_mode m = PAIRWISE_EVEN -> fn_full_det m = false /\ length sizes = 2%nat) ->
  exists p, psi_from_orbitals m O = Some p.
Proof.
  intros H NE Nd Pw. destruct (oshape_squares m sizes O H) as (ns & S & Ln). unfold psi_from_orbitals. cbv zeta in *.
  set (P := if fn_full_det m then _ else _) in *. assert (LP : length P = length ns) by (apply Forall2_len in S; rewrite map_length in S; congruence). clearbody P.
  assert (D : exists v, sequence (map (fun o => sequence (map linalg_det o)) P) = Some v).
  { apply sequence_total. intros o Ho. apply sequence_total. intros a Ha. apply (In_nth _ _ []) in Ha. destruct Ha as (k & Hk & <-).
    apply (In_nth _ _ []) in Ho. destruct Ho as (b & Hb & <-). 
    assert (Q : length (nth b P []) = fn_ndet m /\ forall k, (k < fn_ndet m)%nat -> shape2 (nth b ns 0%nat) (nth b ns 0%nat) (nth k (nth b P []) [])).
    { clear -S Hb. revert b Hb S. revert P. induction ns as [|n ns IH]; intros P b Hb S; inversion S; subst; [cbn in Hb; lia|]. destruct b as [|b]; [assumption|].
      cbn [nth]. apply IH; [cbn in Hb; lia|assumption]. }
    destruct Q as (Q1 & Q2). apply (square_some (nth b ns 0%nat)). apply Q2. lia. }
  destruct (fn_det_fn m) as [fn|] eqn:Ed.
  - destruct D as (v & Ev). rewrite Ev. cbn [bind_opt]. destruct (fn_mode m) eqn:Em; try (eexists; reflexivity).
    destruct (Pw fn eq_refl eq_refl) as (Ef & L2). rewrite Ef in Ln. apply sequence_length in Ev. rewrite map_length in Ev.
    destruct v as [|up [|down [|]]]; cbn [length] in Ev; try lia. eexists. reflexivity.
  - assert (G : exists l, sequence (map slogdet_product (determinant_slices P (fn_ndet m))) = Some l).
    { apply sequence_total. intros L HL. unfold determinant_slices in HL. apply in_map_iff in HL. destruct HL as (k & <- & Hk). apply in_seq in Hk.
      unfold slogdet_product. pose proof (oshape_slice _ _ _ k S ltac:(lia)) as Sk.
      assert (E : exists l, sequence (map linalg_slogdet (map (fun o => nth k o []) P)) = Some l).
      { apply sequence_total. intros a Ha. revert Ha Sk. generalize (map (fun o : list arr2 => nth k o []) P) as Q. clear. intros Q Ha Sk.
        assert (Z : exists n, shape2 n n a). { revert Ha Sk. revert Q. induction ns as [|n ns IH]; intros Q Ha Sk; inversion Sk; subst; [destruct Ha|]. destruct Ha as [<-|Ha]; [exists n; assumption|eapply IH; eassumption]. }
        destruct Z as (n & Z). destruct (square_some n a Z) as (v & Ev). unfold linalg_slogdet. rewrite Ev. eexists. reflexivity. }
      destruct E as (l & El). rewrite El. apply sequence_length in El. rewrite !map_length in El. destruct l as [|a l]; [|eexists; reflexivity].
      exfalso. cbn in El. rewrite LP, Ln in El. destruct (fn_full_det m); [discriminate|]. destruct sizes; [congruence|discriminate]. }
    destruct G as (l & El). rewrite El. cbn [bind_opt]. unfold slog_sum_over_axis. rewrite log_linear_exp_spec. apply sequence_length in El.
    unfold determinant_slices in El. rewrite !map_length, seq_length in El. destruct l; [cbn in El; lia|]. eexists. reflexivity.
Qed.

Lemma describes_splittable sp sizes : describes sp sizes -> splittable sp (list_sum sizes) = true.
Proof.
  intros (NE & [(k & n & -> & ->)| ->]); [|reflexivity]. unfold splittable. rewrite list_sum_repeat. destruct (Nat.eqb_spec k 0) as [->|NZ]; [exfalso; apply NE; reflexivity|].
  cbn [negb andb]. apply Nat.eqb_eq. rewrite Nat.mul_comm. apply Nat.mod_mul. exact NZ.
Qed.
Lemma built_ok sizes bs : built_for sizes bs -> backflow_ok bs (list_sum sizes) = true.
Proof. intros H. apply forallb_forall. intros b Hb. unfold built_for in H. rewrite Forall_forall in H. apply describes_splittable, H, Hb. Qed.
Lemma to_nats_of l : to_nats (map Z.of_nat l) = Some l.
Proof.
  induction l as [|a l IH]; [reflexivity|]. cbn [map to_nats]. destruct (Z.ltb_spec (Z.of_nat a) 0); [lia|]. rewrite IH. cbn [option_map]. rewrite Nat2Z.id. reflexivity.
Qed.
Lemma reshape_shape nd n w b : (0 < nd)%nat -> length b = n -> Forall (fun r : vec => length r = (w * nd)%nat) b ->
  exists o, reshape_raw_orbitals nd b = Some o /\ length o = nd /\ forall k, (k < nd)%nat -> shape2 n w (nth k o []).
Proof.
  intros Nd L F. unfold reshape_raw_orbitals. cbv zeta. destruct (Nat.eqb_spec nd 0); [lia|].
  destruct b as [|r b'] eqn:Eb.
  - cbn [width]. assert (W : width [] = 0%nat) by reflexivity. rewrite W. rewrite Nat.mod_0_l by lia. cbn [Nat.eqb]. eexists. split; [reflexivity|].
    rewrite map_length, seq_length. split; [reflexivity|]. intros k Hk. rewrite (nth_map_seq (fun _ => map _ [])) by exact Hk. cbn [map]. cbn in L. subst n. split; [reflexivity|constructor].
  - rewrite <- Eb in *. assert (W : width b = (w * nd)%nat) by (rewrite Eb in *; inversion F; assumption). rewrite W, Nat.mod_mul, Nat.div_mul by lia. cbn [Nat.eqb].
    eexists. split; [reflexivity|]. rewrite map_length, seq_length. split; [reflexivity|]. intros k Hk.
    rewrite (nth_map_seq (fun k => map (fun row => firstn w (skipn (k * w) row)) b)) by exact Hk. split; [rewrite map_length; exact L|].
    apply Forall_map. eapply Forall_impl; [|exact F]. intros row Hr. cbn beta. rewrite firstn_length, skipn_length, Hr.
    assert ((k * w + w <= w * nd)%nat) by nia. lia.
Qed.
Lemma raw_shape nd (sizes norbs : list nat) (L : list arr2) : (0 < nd)%nat -> length norbs = length sizes -> length L = length sizes ->
  (forall b, (b < length sizes)%nat -> length (nth b L []) = nth b sizes 0%nat /\ Forall (fun r : vec => length r = (nth b norbs 0 * nd)%nat) (nth b L [])) ->
  exists O, sequence (map (reshape_raw_orbitals nd) L) = Some O /\ oshape nd (combine sizes norbs) O.
Proof.
  intros Nd. revert norbs L. induction sizes as [|n sizes IH]; intros [|w norbs] [|l L] L1 L2 H; try discriminate; [exists []; split; [reflexivity|constructor]|].
  destruct (H 0%nat ltac:(cbn; lia)) as (H1 & H2). cbn [nth] in H1, H2. destruct (reshape_shape nd n w l Nd H1 H2) as (o & Eo & Sh).
  destruct (IH norbs L) as (O & EO & SO); [cbn in L1; lia|cbn in L2; lia|intros b Hb; apply (H (S b)); cbn; lia|].
  exists (o :: O). cbn [map sequence]. rewrite Eo, EO. split; [reflexivity|]. constructor; [exact Sh|exact SO].
Qed.
Lemma eval_shape m osplit sizes norbs x r : describes osplit sizes -> length x = list_sum sizes ->
  match r with Some r => length r = list_sum sizes | None => True end -> length norbs = length sizes -> (0 < fn_ndet m)%nat ->
  exists O, eval_orbitals m osplit norbs x r = Some O /\ oshape (fn_ndet m) (combine sizes norbs) O.
Proof.
  intros D L Lr Ln Nd. unfold eval_orbitals, check. rewrite Ln, (nsplits_of osplit sizes D), Nat.eqb_refl, L, (describes_splittable osplit sizes D). cbn [andb].
  assert (Ok : orbitals_ok sizes (orbital_layer_of m osplit norbs)).
  { split; [exact D|]. cbn [orbital_layer_of ol_splits]. rewrite mapi_length. exact Ln. }
  rewrite (orbitals_rows _ sizes x r Ok L Lr). apply raw_shape; [exact Nd|exact Ln|apply by_spin_length|].
  intros b Hb. rewrite by_spin_nth by exact Hb. rewrite map_length, seq_length. split; [reflexivity|]. apply Forall_map, Forall_forall. intros i _.
  rewrite orbital_row_length. cbn [orbital_layer_of ol_splits]. rewrite (mapi_nth _ norbs b 0%nat) by lia. reflexivity.
Qed.
(** The stream of one-electron inputs is flat. *)
Lemma flat_input o n d x i1 i2 r1 r2 : shape2 n d x -> ions_fit d o -> (so_ion_pos o = None \/ so_ei_norm o = true) ->
  compute_input_streams o x = (i1, i2, r1, r2) -> exists x1, rows_of_input i1 = Some x1.
Proof.
  intros Sx Fi Fl E. unfold compute_input_streams in E.
  assert (A : exists x1, rows_of_input (fst (compute_electron_ion x (so_ion_pos o) (so_ei_norm o) (so_ei_soft o))) = Some x1).
  { unfold ions_fit in Fi. destruct (so_ion_pos o) as [ions|].
    - destruct Fl as [Fl|Fl]; [discriminate|]. rewrite Fl. destruct (ei_shape n (length ions) d x ions (so_ei_soft o) Sx Fi) as (r & Er & _). rewrite Er. eexists. reflexivity.
    - eexists. reflexivity. }
  destruct (compute_electron_ion x (so_ion_pos o) (so_ei_norm o) (so_ei_soft o)) as (j, q). cbn [fst] in A.
  destruct (so_2e o); [destruct (compute_electron_electron x (so_ee_norm o) (so_ee_soft o))|]; injection E as <- _ _ _; exact A.
Qed.
Lemma norbitals_sizes full sp sizes : describes sp sizes -> (full = true \/ sp <> At []) ->
  exists norbs, norbitals_per_split full (list_sum sizes) sp = Some norbs /\ combine sizes norbs = shapes_of full sizes /\ length norbs = length sizes.
Proof.
  intros D H. unfold norbitals_per_split, shapes_of. destruct full.
  - eexists. split; [reflexivity|]. rewrite (nsplits_of sp sizes D), repeat_length. split; [|reflexivity]. generalize (list_sum sizes) as w. clear.
    intros w. induction sizes as [|n sizes IH]; [reflexivity|]. cbn [length repeat combine map]. rewrite IH. reflexivity.
  - destruct H as [H|H]; [discriminate|]. rewrite (nelec_describes sp sizes D H). cbn [bind_opt]. rewrite to_nats_of. eexists. split; [reflexivity|]. split; [|reflexivity].
    clear. induction sizes as [|n sizes IH]; [reflexivity|]. cbn [combine map]. rewrite IH. reflexivity.
Qed.
Lemma matrices_total m osplit sizes d x : describes osplit sizes -> built_for sizes (fn_backflow m) -> ions_fit d (fn_streams m) ->
  shape2 (list_sum sizes) d x -> (0 < fn_ndet m)%nat -> (so_ion_pos (fn_streams m) = None \/ so_ei_norm (fn_streams m) = true) ->
  (fn_full_det m = true \/ osplit <> At []) ->
  exists O, ferminet_orbital_matrices m x osplit = Some O /\ oshape (fn_ndet m) (shapes_of (fn_full_det m) sizes) O.
Proof.
  intros D B Fi Sx Nd Fl Hs. pose proof Sx as (L & _). unfold ferminet_orbital_matrices.
  destruct (compute_input_streams (fn_streams m) x) as (((i1, i2), r1), r2) eqn:E.
  destruct (streams_shape _ _ _ _ Sx Fi _ _ _ _ E) as (S1 & (d2 & S2) & S3 & _).
  destruct (flat_input _ _ _ _ _ _ _ _ Sx Fi Fl E) as (x1 & E1). destruct (S1 x1 E1) as (d1 & Sx1). rewrite E1. cbn [bind_opt]. unfold check. rewrite L.
  rewrite (built_ok sizes _ B). cbv zeta. destruct (norbitals_sizes (fn_full_det m) osplit sizes D Hs) as (norbs & En & Ec & Ln). rewrite En. cbn [bind_opt].
  destruct (backflow_shape (fn_backflow m) sizes x1 i2 d1 d2 B Sx1 S2) as (d' & (Lb & _)).
  destruct (eval_shape m osplit sizes norbs (backflow (fn_backflow m) x1 i2) r1 D Lb S3 Ln Nd) as (O & EO & SO). rewrite Ec in SO. exists O. split; assumption.
Qed.
Lemma ferminet_total m sizes d x : fits sizes d m -> shape2 (list_sum sizes) d x -> (0 < fn_ndet m)%nat ->
  (so_ion_pos (fn_streams m) = None \/ so_ei_norm (fn_streams m) = true) -> (fn_full_det m = true \/ fn_split m <> At []) ->
  (forall fn, fn_det_fn m = Some fn -> fn_mode m = PAIRWISE_EVEN -> fn_full_det m = false /\ length sizes = 2%nat) ->
  exists p, ferminet_call m x = Some p.
Proof.
  intros (D & B & Fi) Sx Nd Fl Hs Pw. unfold ferminet_call. destruct (matrices_total m (fn_split m) sizes d x D B Fi Sx Nd Fl Hs) as (O & -> & SO).
  cbn [bind_opt]. apply (psi_total m sizes O SO); try assumption. apply D.
Qed.

(** ** Coincidence in a FermiNet *)
Lemma coincide_flips m osplit sizes d x i j O : describes osplit sizes -> built_for sizes (fn_backflow m) -> ions_fit d (fn_streams m) ->
  shape2 (list_sum sizes) d x -> coincide sizes x i j -> ferminet_orbital_matrices m x osplit = Some O ->
  oflips (fn_ndet m) (block_signs sizes (exchange i j)) O O /\ lprod (block_signs sizes (exchange i j)) = -1.
Proof.
  intros D B Fi Sx (Hi & Hj & Ne & Sp & E) EO. pose proof Sx as (L & _). assert (K := exchange_keeps sizes i j Hi Hj Sp).
  pose proof (matrices_orel m osplit sizes d (exchange i j) x D B Fi K ltac:(lia) Sx) as Q.
  rewrite (reorder_exchange_same x i j []) in Q by (rewrite ?L; assumption). rewrite EO in Q. split; [exact Q|].
  rewrite (block_signs_prod sizes _ K). apply exchange_sign; assumption.
Qed.
