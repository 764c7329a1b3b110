(** P_fcheckpoint: the rounding error of a running average. *)
From Coq Require Import ZArith Reals.
From Flocq Require Import Core IEEE754.BinarySingleNaN Relative Mult_error Plus_error.
From Coq Require Import Lia Lra List Permutation Bool Arith.
Import ListNotations.
From Verif Require Import M_float S_float P_float P_float2 M_fwalk S_fwalk P_fwalk P_fwalk2 M_fenergy S_fenergy P_fenergy P_fenergy2 M_fcheckpoint S_fcheckpoint.
Open Scope R_scope.

Section Average.
Variables prec emax : Z.
Context {Hp : Prec_gt_0 prec}.
Context {He : Prec_lt_emax prec emax}.
Notation fl := (binary_float prec emax).
Notation ex := (SpecFloat.fexp prec emax).
Notation rnd := (round radix2 ex ZnearestE).
Notation u := (unit_roundoff prec).
Notation fadd := (fadd prec emax). Notation fsub := (fsub prec emax). Notation fmul := (fmul prec emax).
Notation fdiv := (fdiv prec emax). Notation of_nat := (of_nat prec emax).

Lemma add_gen M (x y : fl) : generic_format radix2 ex M -> M < bpow radix2 emax -> is_finite x = true -> is_finite y = true -> Rabs (B2R x + B2R y) <= M ->
  is_finite (fadd x y) = true /\ B2R (fadd x y) = rnd (B2R x + B2R y) /\ Rabs (B2R (fadd x y)) <= M.
Proof.
  intros G L Fx Fy H. pose proof (Bplus_correct prec emax Hp He mode_NE x y Fx Fy) as C. cbn [round_mode] in C.
  assert (Q : Rabs (rnd (B2R x + B2R y)) <= M) by (apply (rnd_abs_le prec emax); assumption).
  rewrite Rlt_bool_true in C by lra. destruct C as [C1 [C2 _]]. unfold M_float.fadd. rewrite C1, C2. auto.
Qed.
Lemma sub_gen M (x y : fl) : generic_format radix2 ex M -> M < bpow radix2 emax -> is_finite x = true -> is_finite y = true -> Rabs (B2R x - B2R y) <= M ->
  is_finite (fsub x y) = true /\ B2R (fsub x y) = rnd (B2R x - B2R y) /\ Rabs (B2R (fsub x y)) <= M.
Proof.
  intros G L Fx Fy H. pose proof (Bminus_correct prec emax Hp He mode_NE x y Fx Fy) as C. cbn [round_mode] in C.
  assert (Q : Rabs (rnd (B2R x - B2R y)) <= M) by (apply (rnd_abs_le prec emax); assumption).
  rewrite Rlt_bool_true in C by lra. destruct C as [C1 [C2 _]]. unfold M_float.fsub. rewrite C1, C2. auto.
Qed.

Definition rs (l : list fl) : R := fold_right Rplus 0 (map (fun x => B2R x) l).
Definition rm (l : list fl) : R := real_mean (map (fun x => B2R x) l).
Lemma rs_app l m : rs (l ++ m) = rs l + rs m.
Proof. unfold rs. induction l as [|x l IH]; cbn; [lra|rewrite IH; lra]. Qed.
Lemma rs_one x : rs [x] = B2R x. Proof. unfold rs. cbn. lra. Qed.
Lemma rs_cons x l : rs (x :: l) = B2R x + rs l. Proof. reflexivity. Qed.
Lemma rm_rs l : l <> [] -> rm l = rs l / INR (length l).
Proof. intros _. unfold rm, real_mean, rs. rewrite map_length. reflexivity. Qed.
Lemma rm_times l : INR (length l) * rm l = rs l.
Proof.
  destruct l as [|x l]; [unfold rm, real_mean, rs; cbn; lra|]. rewrite rm_rs by discriminate. field. apply not_0_INR. discriminate.
Qed.
Lemma rs_bound M l : (forall x, In x l -> Rabs (B2R x) <= M) -> Rabs (rs l) <= INR (length l) * M.
Proof.
  induction l as [|x l IH]; intros H; [unfold rs; cbn; rewrite Rabs_R0; lra|]. rewrite rs_cons. cbn [length]. rewrite S_INR. eapply Rle_trans; [apply Rabs_triang|].
  specialize (IH (fun y Hy => H y (or_intror Hy))). specialize (H x (or_introl eq_refl)). lra.
Qed.
Lemma rm_bound M l : 0 <= M -> (forall x, In x l -> Rabs (B2R x) <= M) -> Rabs (rm l) <= M.
Proof.
  intros PM H. destruct l as [|x l]; [unfold rm, real_mean; cbn; unfold Rdiv; rewrite Rmult_0_l, Rabs_R0; exact PM|]. rewrite rm_rs by discriminate.
  assert (P : 0 < INR (length (x :: l))) by (apply lt_0_INR; cbn; lia). unfold Rdiv. rewrite Rabs_mult, (Rabs_pos_eq (/ _)) by (left; apply Rinv_0_lt_compat; exact P).
  apply (Rmult_le_reg_r (INR (length (x :: l)))); [exact P|]. rewrite Rmult_assoc, Rinv_l, Rmult_1_r by lra. rewrite Rmult_comm. apply rs_bound. exact H.
Qed.

Variable k : Z.
Hypothesis K0 : (0 <= k)%Z.
Hypothesis K1 : (k + 1 + prec < emax)%Z.
Notation B := (bpow radix2 k).
Definition good (x : fl) : Prop := is_finite x = true /\ Rabs (B2R x) <= B.

Lemma step_accuracy nmax r x e : (2 <= nmax)%nat -> INR (nmax + 1) <= bpow radix2 prec ->
  (forall y, In y (r_history _ _ r) -> good y) -> (length (r_history _ _ r) < nmax)%nat -> good x ->
  is_finite (r_avg _ _ r) = true -> Rabs (B2R (r_avg _ _ r) - rm (r_history _ _ r)) <= e -> e + 16 * u * B <= B ->
  let r' := move_window prec emax nmax r x in
  is_finite (r_avg _ _ r') = true /\ Rabs (B2R (r_avg _ _ r') - rm (r_history _ _ r')) <= e + 16 * u * B /\ Rabs (B2R (r_avg _ _ r')) <= bpow radix2 (k + 1).
Proof.
  intros N2 NP HG HL [Fx Bx] Fa Ea EB r'. destruct r as [a hist]. cbn [r_avg r_history] in *. pose proof (bpow_gt_0 radix2 k) as PB. pose proof (u_pos prec) as U. pose proof (prec1 prec) as P1.
  assert (E1 : bpow radix2 (k + 1) = 2 * B) by (rewrite bpow_plus; change (bpow radix2 1) with 2; ring). set (D := bpow radix2 (k + 1)) in *.
  assert (PN : bpow radix2 (SpecFloat.emin prec emax + prec - 1) <= D) by (apply (normal_le prec emax (k + 1)); lia).
  assert (FM : forall j, (j <= nmax + 1)%nat -> generic_format radix2 ex (INR j * D) /\ INR j * D < bpow radix2 emax).
  { intros j Hj. assert (J : INR j <= bpow radix2 prec) by (eapply Rle_trans; [apply le_INR; exact Hj|exact NP]). split; [apply (fmt_intB prec emax (k + 1) ltac:(lia) j J)|apply (intB_range prec emax (k + 1) ltac:(lia) j J)]. }
  assert (BM : Rabs (rm hist) <= B) by (apply rm_bound; [lra|intros y Hy; apply HG; exact Hy]).
  assert (UB : 0 <= u * B) by (apply Rmult_le_pos; lra).
  assert (BA : Rabs (B2R a) <= D). { rewrite E1. apply Rabs_le. apply Rabs_le_inv in Ea. apply Rabs_le_inv in BM. lra. }
  set (h := length hist) in *.
  destruct (of_nat_R prec emax h) as [Fh Vh]; [apply Rle_trans with (2 := NP); apply le_INR; lia|].
  assert (Ph : 0 <= INR h) by apply pos_INR.
  (* the product *)
  assert (Bp : Rabs (B2R (of_nat h) * B2R a) <= INR h * D). { rewrite Vh, Rabs_mult, (Rabs_pos_eq _ Ph). apply Rmult_le_compat_l; assumption. }
  assert (X1 : is_finite (fmul (of_nat h) a) = true /\ Rabs (B2R (fmul (of_nat h) a)) <= INR h * D /\ Rabs (B2R (fmul (of_nat h) a) - INR h * B2R a) <= u * (INR h * D)).
  { destruct (FM h ltac:(lia)) as [G L]. destruct (mul_scaled prec emax (INR h * D) (of_nat h) a G L Fh Fa Bp) as [F1 [V1 B1]]. split; [exact F1|]. split; [exact B1|]. rewrite V1, Vh. rewrite Vh in Bp.
    destruct (Nat.eq_dec h 0) as [Z|Z]; [rewrite Z; cbn [INR]; rewrite !Rmult_0_l, (rnd_0 prec emax), Rminus_0_r, Rabs_R0; lra|].
    apply (rnd_err prec emax); [|exact Bp]. assert (1 <= INR h) by (change 1 with (INR 1); apply le_INR; lia). eapply Rle_trans; [exact PN|]. nra. }
  destruct X1 as [F1 [B1 V1]]. set (p := fmul (of_nat h) a) in *.
  (* the sum *)
  assert (PD : 0 < D) by apply bpow_gt_0.
  assert (Bs : Rabs (B2R p + B2R x) <= INR (S h) * D). { rewrite S_INR. eapply Rle_trans; [apply Rabs_triang|]. lra. }
  destruct (FM (S h) ltac:(lia)) as [G2 L2]. destruct (add_gen (INR (S h) * D) p x G2 L2 F1 Fx Bs) as [F2 [V2 B2]].
  assert (Sh : 1 <= INR (S h)) by (rewrite S_INR; lra).
  pose proof (rnd_err prec emax _ (INR (S h) * D) ltac:(nra) Bs) as E2. rewrite <- V2 in E2. set (s := fadd p x) in *.
  assert (HT : INR h * rm hist = rs hist) by (apply rm_times).
  assert (EH : Rabs (INR h * B2R a - rs hist) <= INR h * e). { rewrite <- HT, <- Rmult_minus_distr_l, Rabs_mult, (Rabs_pos_eq _ Ph). apply Rmult_le_compat_l; assumption. }
  unfold r', move_window. cbn [r_avg r_history]. fold h. fold p. fold s. destruct nmax as [|nm]; [lia|].
  destruct (Nat.leb_spec (S nm) (S h)) as [Q|Q].
  - (* full window *)
    assert (HN : h = nm) by lia. destruct hist as [|old rest]; [cbn in h; lia|]. cbn [app]. cbn [r_avg r_history].
    assert (GO : good old) by (apply HG; left; reflexivity). destruct GO as [Fo Bo].
    assert (Bd : Rabs (B2R s - B2R old) <= INR (S (S h)) * D). { rewrite S_INR. unfold Rminus. eapply Rle_trans; [apply Rabs_triang|]. rewrite Rabs_Ropp. lra. }
    destruct (FM (S (S h)) ltac:(lia)) as [G3 L3]. destruct (sub_gen (INR (S (S h)) * D) s old G3 L3 F2 Fo Bd) as [F3 [V3 B3]].
    assert (SSh : 1 <= INR (S (S h))) by (rewrite S_INR; lra).
    pose proof (rnd_err prec emax _ (INR (S (S h)) * D) ltac:(nra) Bd) as E3. rewrite <- V3 in E3. set (d := fsub s old) in *.
    assert (H1 : 1 <= INR h) by (change 1 with (INR 1); apply le_INR; lia).
    assert (RS : rs (rest ++ [x]) = rs (old :: rest) + B2R x - B2R old) by (rewrite rs_app, rs_one, rs_cons; lra).
    assert (LR : length (rest ++ [x]) = h) by (rewrite app_length; unfold h; cbn; lia).
    assert (RM : rm (rest ++ [x]) = rs (rest ++ [x]) / INR h) by (rewrite rm_rs, LR; [reflexivity|destruct rest; discriminate]).
    assert (BR : Rabs (rm (rest ++ [x])) <= B). { apply rm_bound; [lra|]. intros y Hy. apply in_app_or in Hy. destruct Hy as [Hy|[<-|[]]]; [apply HG; right; exact Hy|exact Bx]. }
    assert (ED : Rabs (B2R d - rs (rest ++ [x])) <= INR h * e + 12 * (INR h * (u * B))).
    { rewrite RS. replace (B2R d - (rs (old :: rest) + B2R x - B2R old)) with ((B2R d - (B2R s - B2R old)) + ((B2R s - (B2R p + B2R x)) + ((B2R p - INR h * B2R a) + (INR h * B2R a - rs (old :: rest))))) by ring.
      pose proof (Rabs_triang (B2R d - (B2R s - B2R old)) ((B2R s - (B2R p + B2R x)) + ((B2R p - INR h * B2R a) + (INR h * B2R a - rs (old :: rest))))) as T1.
      pose proof (Rabs_triang (B2R s - (B2R p + B2R x)) ((B2R p - INR h * B2R a) + (INR h * B2R a - rs (old :: rest)))) as T2.
      pose proof (Rabs_triang (B2R p - INR h * B2R a) (INR h * B2R a - rs (old :: rest))) as T3.
      rewrite (S_INR (S h)), (S_INR h), E1 in E3. rewrite (S_INR h), E1 in E2. rewrite E1 in V1.
      assert (A3 : u * ((INR h + 1 + 1) * (2 * B)) = 2 * (INR h * (u * B)) + 4 * (u * B)) by ring.
      assert (A2 : u * ((INR h + 1) * (2 * B)) = 2 * (INR h * (u * B)) + 2 * (u * B)) by ring.
      assert (A1 : u * (INR h * (2 * B)) = 2 * (INR h * (u * B))) by ring.
      assert (A0 : u * B <= INR h * (u * B)) by nra. lra. }
    assert (EQ : Rabs (B2R d / INR h - rm (rest ++ [x])) <= e + 12 * (u * B)).
    { rewrite RM. replace (B2R d / INR h - rs (rest ++ [x]) / INR h) with ((B2R d - rs (rest ++ [x])) / INR h) by (field; lra).
      unfold Rdiv. rewrite Rabs_mult, (Rabs_pos_eq (/ INR h)) by (left; apply Rinv_0_lt_compat; lra). apply (Rmult_le_reg_r (INR h)); [lra|]. rewrite Rmult_assoc, Rinv_l, Rmult_1_r by lra. lra. }
    destruct (quotient_scaled prec emax (k + 1) ltac:(lia) ltac:(lia) d h F3 ltac:(lia)) as [F4 [B4 [E4 _]]].
    { eapply Rle_trans; [apply le_INR|exact NP]. lia. }
    { fold D. assert (Z : Rabs (B2R d / INR h) <= D). { rewrite E1. apply Rabs_le. apply Rabs_le_inv in EQ. apply Rabs_le_inv in BR. lra. }
      unfold Rdiv in Z. rewrite Rabs_mult, (Rabs_pos_eq (/ INR h)) in Z by (left; apply Rinv_0_lt_compat; lra). apply (Rmult_le_compat_r (INR h)) in Z; [|lra]. rewrite Rmult_assoc, Rinv_l, Rmult_1_r in Z by lra. lra. }
    split; [exact F4|]. split; [|exact B4]. fold D in E4. rewrite E1 in E4. set (q := fdiv d (of_nat h)) in *.
    replace (B2R q - rm (rest ++ [x])) with ((B2R q - B2R d / INR h) + (B2R d / INR h - rm (rest ++ [x]))) by ring. eapply Rle_trans; [apply Rabs_triang|]. lra.
  - (* growing window *)
    cbn [r_avg r_history].
    assert (LR : length (hist ++ [x]) = S h) by (rewrite app_length; unfold h; cbn; lia).
    assert (RM : rm (hist ++ [x]) = rs (hist ++ [x]) / INR (S h)) by (rewrite rm_rs, LR; [reflexivity|destruct hist; discriminate]).
    assert (RS : rs (hist ++ [x]) = rs hist + B2R x) by (rewrite rs_app, rs_one; reflexivity).
    assert (BR : Rabs (rm (hist ++ [x])) <= B). { apply rm_bound; [lra|]. intros y Hy. apply in_app_or in Hy. destruct Hy as [Hy|[<-|[]]]; [apply HG; exact Hy|exact Bx]. }
    assert (P0 : 0 <= e) by (eapply Rle_trans; [apply Rabs_pos|exact Ea]).
    assert (ED : Rabs (B2R s - rs (hist ++ [x])) <= INR (S h) * e + 4 * (INR (S h) * (u * B))).
    { rewrite RS. replace (B2R s - (rs hist + B2R x)) with ((B2R s - (B2R p + B2R x)) + ((B2R p - INR h * B2R a) + (INR h * B2R a - rs hist))) by ring.
      pose proof (Rabs_triang (B2R s - (B2R p + B2R x)) ((B2R p - INR h * B2R a) + (INR h * B2R a - rs hist))) as T2.
      pose proof (Rabs_triang (B2R p - INR h * B2R a) (INR h * B2R a - rs hist)) as T3.
      rewrite S_INR, E1 in E2. rewrite E1 in V1. rewrite S_INR.
      assert (A2 : u * ((INR h + 1) * (2 * B)) = 2 * ((INR h + 1) * (u * B))) by ring.
      assert (A1 : u * (INR h * (2 * B)) = 2 * (INR h * (u * B))) by ring. nra. }
    assert (EQ : Rabs (B2R s / INR (S h) - rm (hist ++ [x])) <= e + 4 * (u * B)).
    { rewrite RM. replace (B2R s / INR (S h) - rs (hist ++ [x]) / INR (S h)) with ((B2R s - rs (hist ++ [x])) / INR (S h)) by (field; lra).
      unfold Rdiv. rewrite Rabs_mult, (Rabs_pos_eq (/ INR (S h))) by (left; apply Rinv_0_lt_compat; lra). apply (Rmult_le_reg_r (INR (S h))); [lra|]. rewrite Rmult_assoc, Rinv_l, Rmult_1_r by lra. lra. }
    destruct (quotient_scaled prec emax (k + 1) ltac:(lia) ltac:(lia) s (S h) F2 ltac:(lia)) as [F4 [B4 [E4 _]]].
    { eapply Rle_trans; [apply le_INR|exact NP]. lia. }
    { exact B2. }
    split; [exact F4|]. split; [|exact B4]. fold D in E4. rewrite E1 in E4. set (q := fdiv s (of_nat (S h))) in *.
    replace (B2R q - rm (hist ++ [x])) with ((B2R q - B2R s / INR (S h)) + (B2R s / INR (S h) - rm (hist ++ [x]))) by ring. eapply Rle_trans; [apply Rabs_triang|]. lra.
Qed.

(** The history after a step. *)
Lemma step_history nmax (r : running prec emax) x : (1 <= nmax)%nat -> (length (r_history _ _ r) < nmax)%nat ->
  r_history _ _ (move_window prec emax nmax r x) = skipn (length (r_history _ _ r) + 1 - (nmax - 1)) (r_history _ _ r ++ [x]) /\
  (length (r_history _ _ (move_window prec emax nmax r x)) < nmax)%nat.
Proof.
  intros N L. destruct r as [a hist]. cbn [r_history] in *. unfold move_window. cbn [r_avg r_history]. destruct nmax as [|nm]; [lia|]. replace (S nm - 1)%nat with nm by lia.
  destruct (Nat.leb_spec (S nm) (S (length hist))) as [Q|Q].
  - assert (HN : length hist = nm) by lia. replace (length hist + 1 - nm)%nat with 1%nat by lia. destruct hist as [|o rest]; cbn [app r_history skipn]; [split; [reflexivity|cbn; lia]|]. split; [reflexivity|]. rewrite app_length. cbn in HN |- *. lia.
  - cbn [r_history]. replace (length hist + 1 - nm)%nat with O by lia. split; [reflexivity|]. rewrite app_length. cbn. lia.
Qed.
End Average.
