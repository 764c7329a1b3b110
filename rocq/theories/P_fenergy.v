(** P_fenergy: sums, means and variances in floating-point arithmetic. *)
From Coq Require Import ZArith Reals.
From Flocq Require Import Core IEEE754.BinarySingleNaN Relative Mult_error Plus_error.
From Coq Require Import Lia Lra List Permutation Bool Arith.
Import ListNotations.
From Verif Require Import M_float S_float P_float P_float2 M_fwalk S_fwalk P_fwalk P_fwalk2 M_fenergy S_fenergy.
Open Scope R_scope.

(** ** Real means *)
Lemma real_mean_diff {A} (f g : A -> R) l d : l <> [] -> (forall x, In x l -> Rabs (f x - g x) <= d) -> Rabs (real_mean (map f l) - real_mean (map g l)) <= d.
Proof.
  intros NE H. unfold real_mean. rewrite !map_length. assert (P : 0 < INR (length l)) by (apply lt_0_INR; destruct l; [congruence|cbn; lia]).
  assert (S : Rabs (fold_right Rplus 0 (map f l) - fold_right Rplus 0 (map g l)) <= INR (length l) * d).
  { clear NE P. induction l as [|a l IH]; [cbn; rewrite Rminus_0_r, Rabs_R0; lra|]. cbn [map fold_right length]. rewrite S_INR.
    replace (f a + fold_right Rplus 0 (map f l) - (g a + fold_right Rplus 0 (map g l))) with ((f a - g a) + (fold_right Rplus 0 (map f l) - fold_right Rplus 0 (map g l))) by ring.
    eapply Rle_trans; [apply Rabs_triang|]. pose proof (H a (or_introl eq_refl)). specialize (IH (fun x Hx => H x (or_intror Hx))). lra. }
  unfold Rdiv. rewrite <- Rmult_minus_distr_r, Rabs_mult. rewrite (Rabs_pos_eq (/ INR (length l))) by (left; apply Rinv_0_lt_compat; exact P).
  apply (Rmult_le_reg_r (INR (length l))); [exact P|]. rewrite Rmult_assoc, Rinv_l by lra. lra.
Qed.
Lemma real_mean_lin {A} (f g : A -> R) a b c l : l <> [] -> real_mean (map (fun x => a * f x + b * g x + c) l) = a * real_mean (map f l) + b * real_mean (map g l) + c.
Proof.
  intros NE. unfold real_mean. rewrite !map_length. assert (P : 0 < INR (length l)) by (apply lt_0_INR; destruct l; [congruence|cbn; lia]).
  assert (S : fold_right Rplus 0 (map (fun x => a * f x + b * g x + c) l) = a * fold_right Rplus 0 (map f l) + b * fold_right Rplus 0 (map g l) + INR (length l) * c).
  { clear. induction l as [|x l IH]; [cbn; ring|]. cbn [map fold_right length]. rewrite IH, S_INR. ring. }
  rewrite S. field. lra.
Qed.

Section Proofs.
Variables prec emax : Z.
Context {Hp : Prec_gt_0 prec}.
Context {He : Prec_lt_emax prec emax}.
Notation fl := (binary_float prec emax).
Notation emin := (SpecFloat.emin prec emax).
Notation ex := (SpecFloat.fexp prec emax).
Notation rnd := (round radix2 ex ZnearestE).
Notation u := (unit_roundoff prec).
Notation fzero := (fzero prec emax).
Notation weight := (weight prec emax). Notation rsum := (rsum prec emax).
Notation average := (average prec emax). Notation numbers := (numbers prec emax).

Lemma average_diff f g ls d : ls <> [] -> (forall l, In l ls -> numbers l <> []) -> (forall l x, In l ls -> In x (numbers l) -> Rabs (f x - g x) <= d) -> Rabs (average f ls - average g ls) <= d.
Proof. intros NE N H. unfold S_fenergy.average. apply real_mean_diff; [exact NE|]. intros l Hl. apply real_mean_diff; [apply N; exact Hl|]. intros x Hx. eapply H; eassumption. Qed.
Lemma average_lin f g a b c ls : ls <> [] -> (forall l, In l ls -> numbers l <> []) -> average (fun x => a * f x + b * g x + c) ls = a * average f ls + b * average g ls + c.
Proof.
  intros NE N. unfold S_fenergy.average. rewrite <- (real_mean_lin (fun l => real_mean (map f (numbers l))) (fun l => real_mean (map g (numbers l))) a b c ls NE).
  f_equal. apply map_ext_in. intros l Hl. apply real_mean_lin. apply N. exact Hl.
Qed.
Lemma average_ext f g ls : (forall l x, In l ls -> In x (numbers l) -> f x = g x) -> average f ls = average g ls.
Proof. intros H. unfold S_fenergy.average. f_equal. apply map_ext_in. intros l Hl. f_equal. apply map_ext_in. intros x Hx. eapply H; eassumption. Qed.
(** The spread about any number is the variance plus the square of the difference to the mean. *)
Lemma average_spread (E : R) ls : ls <> [] -> (forall l, In l ls -> numbers l <> []) ->
  average (fun e => (B2R e - E) ^ 2) ls = average (fun e => (B2R e - exact_energy prec emax ls) ^ 2) ls + (exact_energy prec emax ls - E) ^ 2.
Proof.
  intros NE N. set (A := exact_energy prec emax ls).
  rewrite (average_ext (fun e => (B2R e - E) ^ 2) (fun e => 1 * (B2R e - A) ^ 2 + (2 * (A - E)) * B2R e + ((A - E) ^ 2 - 2 * (A - E) * A))) by (intros; ring).
  rewrite (average_lin (fun e => (B2R e - A) ^ 2) (fun e => B2R e)) by assumption. change (average (fun e => B2R e) ls) with A. ring.
Qed.

(** ** Sums *)
Variable k : Z.
Hypothesis K0 : (0 <= k)%Z.
Hypothesis K1 : (k + prec < emax)%Z.
Notation B := (bpow radix2 k).

Lemma B_pos : 0 < B. Proof. apply bpow_gt_0. Qed.
Lemma fmt_intB n : INR n <= bpow radix2 prec -> generic_format radix2 ex (INR n * B).
Proof. intros H. apply (mult_bpow_pos_exact_FLT radix2 emin prec); [apply (fmt_int prec emax); exact H|exact K0]. Qed.
Lemma intB_range n : INR n <= bpow radix2 prec -> INR n * B < bpow radix2 emax.
Proof. intros H. apply Rle_lt_trans with (bpow radix2 (prec + k)); [rewrite bpow_plus; apply Rmult_le_compat_r; [left; apply B_pos|exact H]|apply bpow_lt; lia]. Qed.

Lemma eval_scaled : forall t, (forall x, In x (leaves prec emax t) -> is_finite x = true /\ Rabs (B2R x) <= B) ->
  INR (weight (leaves _ _ t)) <= bpow radix2 prec ->
  is_finite (eval _ _ t) = true /\ Rabs (B2R (eval _ _ t)) <= INR (weight (leaves _ _ t)) * B /\
  Rabs (B2R (eval _ _ t) - rsum (leaves _ _ t)) <= u * (INR (weight (leaves _ _ t)) * INR (weight (leaves _ _ t)) * B) /\
  ((forall x, In x (leaves _ _ t) -> 0 <= B2R x) -> 0 <= B2R (eval _ _ t)).
Proof.
  pose proof (u_pos prec) as U. pose proof B_pos as PB.
  induction t as [x|a IHa b IHb]; intros L W.
  - destruct (L x (or_introl eq_refl)) as [F Bx]. cbn [eval leaves]. split; [exact F|].
    unfold P_float.weight, nonzero, P_float.rsum. cbn [map list_sum fold_right]. case Req_bool_spec; intros Z.
    + cbn. rewrite Z. split; [rewrite Rabs_R0; lra|]. split; [rewrite Rplus_0_r, Rminus_0_r, Rabs_R0; lra|intros _; lra].
    + cbn. split; [lra|]. split; [replace (B2R x - (B2R x + 0)) with 0 by ring; rewrite Rabs_R0; nra|]. intros H. apply H. left. reflexivity.
  - cbn [leaves eval] in *. rewrite weight_app in *. rewrite plus_INR in *. rewrite rsum_app.
    pose proof (pos_INR (weight (leaves _ _ a))) as Pa. pose proof (pos_INR (weight (leaves _ _ b))) as Pb.
    destruct IHa as [Fa [Ba [Ea Na]]]; [intros x Hx; apply L, in_or_app; left; exact Hx|lra|].
    destruct IHb as [Fb [Bb [Eb Nb]]]; [intros x Hx; apply L, in_or_app; right; exact Hx|lra|].
    set (wa := INR (weight (leaves _ _ a))) in *. set (wb := INR (weight (leaves _ _ b))) in *.
    assert (Fw : generic_format radix2 ex ((wa + wb) * B)).
    { unfold wa, wb. rewrite <- plus_INR. apply fmt_intB. rewrite plus_INR. exact W. }
    assert (PR : (wa + wb) * B < bpow radix2 emax) by (unfold wa, wb; rewrite <- plus_INR; apply intB_range; rewrite plus_INR; exact W).
    assert (S : Rabs (B2R (eval _ _ a) + B2R (eval _ _ b)) <= (wa + wb) * B) by (eapply Rle_trans; [apply Rabs_triang|lra]).
    destruct (fadd_spec prec emax _ _ ((wa + wb) * B) Fa Fb Fw PR S) as [F [V BB]].
    split; [exact F|]. split; [exact BB|]. split.
    + assert (R1 : Rabs (B2R (fadd _ _ (eval _ _ a) (eval _ _ b)) - (B2R (eval _ _ a) + B2R (eval _ _ b))) <= u * (2 * (wa * wb) * B)).
      { rewrite V.
        assert (Z : forall n : nat, INR n = 0 \/ 1 <= INR n).
        { intros [|n]; [left; reflexivity|right]. rewrite S_INR. pose proof (pos_INR n). lra. }
        assert (Z0 : forall x, Rabs x <= 0 -> x = 0) by (intros x Hx; destruct (Req_dec x 0) as [E|E]; [exact E|apply Rabs_pos_lt in E; lra]).
        destruct (Z (weight (leaves _ _ a))) as [Za|Za]; fold wa in Za.
        - rewrite Za, Rmult_0_l in Ba. rewrite (Z0 _ Ba), Rplus_0_l, (rnd_id prec emax), Za. rewrite Rminus_diag_eq by reflexivity. rewrite Rabs_R0. lra.
        - destruct (Z (weight (leaves _ _ b))) as [Zb|Zb]; fold wb in Zb.
          + rewrite Zb, Rmult_0_l in Bb. rewrite (Z0 _ Bb), Rplus_0_r, (rnd_id prec emax), Zb. rewrite Rminus_diag_eq by reflexivity. rewrite Rabs_R0. lra.
          + eapply Rle_trans; [apply (rnd_plus_err prec emax); apply (fmt_B2R prec emax)|]. apply Rmult_le_compat_l; [lra|]. eapply Rle_trans; [exact S|]. apply Rmult_le_compat_r; [lra|].
            assert (0 <= (wa - 1) * wb) by (apply Rmult_le_pos; lra). assert (0 <= (wb - 1) * wa) by (apply Rmult_le_pos; lra). lra. }
      replace (B2R (fadd _ _ (eval _ _ a) (eval _ _ b)) - (rsum (leaves _ _ a) + rsum (leaves _ _ b)))
        with ((B2R (fadd _ _ (eval _ _ a) (eval _ _ b)) - (B2R (eval _ _ a) + B2R (eval _ _ b)))
              + ((B2R (eval _ _ a) - rsum (leaves _ _ a)) + (B2R (eval _ _ b) - rsum (leaves _ _ b)))) by ring.
      eapply Rle_trans; [apply Rabs_triang|]. pose proof (Rabs_triang (B2R (eval _ _ a) - rsum (leaves _ _ a)) (B2R (eval _ _ b) - rsum (leaves _ _ b))) as T.
      replace (u * ((wa + wb) * (wa + wb) * B)) with (u * (2 * (wa * wb) * B) + (u * (wa * wa * B) + u * (wb * wb * B))) by ring. lra.
    + intros H. rewrite V, <- (rnd_0 prec emax). apply round_le; auto with typeclass_instances; [apply (fexp_correct prec emax Hp)|].
      specialize (Na (fun x Hx => H x (in_or_app _ _ _ (or_introl Hx)))). specialize (Nb (fun x Hx => H x (in_or_app _ _ _ (or_intror Hx)))). lra.
Qed.

Lemma sum_scaled l s : is_sum prec emax l s -> (forall x, In x l -> is_finite x = true /\ Rabs (B2R x) <= B) -> INR (length l) <= bpow radix2 prec ->
  is_finite s = true /\ Rabs (B2R s) <= INR (length l) * B /\ Rabs (B2R s - rsum l) <= u * (INR (length l) * INR (length l) * B) /\ ((forall x, In x l -> 0 <= B2R x) -> 0 <= B2R s).
Proof.
  intros [t [j [P E]]] L N. pose proof B_pos as PB.
  assert (Lt : forall x, In x (leaves _ _ t) -> is_finite x = true /\ Rabs (B2R x) <= B).
  { intros x Hx. apply (Permutation_in _ P) in Hx. apply in_app_or in Hx. destruct Hx as [Hx|Hx]; [apply L; exact Hx|].
    apply repeat_spec in Hx. subst x. split; [reflexivity|]. cbn. rewrite Rabs_R0. lra. }
  assert (Wt : weight (leaves _ _ t) = weight l) by (rewrite (weight_perm _ _ _ _ P), weight_app, weight_zeros; lia).
  assert (Wl : INR (weight l) <= INR (length l)) by (apply le_INR, weight_le).
  pose proof (pos_INR (weight l)) as Pw. pose proof (u_pos prec) as U.
  destruct (eval_scaled t Lt) as [F [Bd [Er Ng]]]; [rewrite Wt; lra|]. rewrite Wt in *. rewrite E in *.
  rewrite (rsum_perm _ _ _ _ P), rsum_app, rsum_zeros, Rplus_0_r in Er.
  split; [exact F|]. split; [eapply Rle_trans; [exact Bd|]; apply Rmult_le_compat_r; lra|]. split.
  - eapply Rle_trans; [exact Er|]. apply Rmult_le_compat_l; [lra|]. apply Rmult_le_compat_r; [lra|]. apply Rmult_le_compat; lra.
  - intros Q. apply Ng. intros x Hx. apply (Permutation_in _ P) in Hx. apply in_app_or in Hx. destruct Hx as [Hx|Hx]; [apply Q; exact Hx|]. apply repeat_spec in Hx. subst x. cbn. lra.
Qed.

Lemma rsum_mean l : rsum l / INR (length l) = real_mean (map (fun e => B2R e) l).
Proof. unfold real_mean. rewrite map_length. reflexivity. Qed.

Lemma quotient_scaled s m : is_finite s = true -> (0 < m)%nat -> INR m <= bpow radix2 prec -> Rabs (B2R s) <= INR m * B ->
  is_finite (fdiv prec emax s (of_nat prec emax m)) = true /\ Rabs (B2R (fdiv prec emax s (of_nat prec emax m))) <= B /\
  Rabs (B2R (fdiv prec emax s (of_nat prec emax m)) - B2R s / INR m) <= u * B /\ (0 <= B2R s -> 0 <= B2R (fdiv prec emax s (of_nat prec emax m))).
Proof.
  intros F M L Bs. destruct (of_nat_R prec emax m L) as [Fn Vn]. assert (Pn : 0 < INR m) by (apply lt_0_INR; exact M).
  pose proof (Bdiv_correct prec emax Hp He mode_NE s (of_nat prec emax m)) as C. rewrite Vn in C. specialize (C ltac:(lra)). cbn [round_mode] in C.
  assert (Q : Rabs (B2R s / INR m) <= B). { unfold Rdiv. rewrite Rabs_mult, (Rabs_pos_eq (/ INR m)) by (left; apply Rinv_0_lt_compat; exact Pn). apply (Rmult_le_reg_r (INR m)); [exact Pn|]. rewrite Rmult_assoc, Rinv_l by lra. lra. }
  assert (FB : generic_format radix2 ex B). { apply (fmt_bpow prec emax). pose proof (emin_neg prec emax). lia. }
  pose proof (rnd_abs_le prec emax _ B FB Q) as RB. rewrite Rlt_bool_true in C.
  - destruct C as [C1 [C2 _]]. unfold fdiv. rewrite C1, C2. split; [exact F|]. split; [exact RB|]. split.
    + apply (rnd_err prec emax); [|exact Q]. apply bpow_le. pose proof (emax_2 prec emax). unfold SpecFloat.emin. lia.
    + intros P. rewrite <- (rnd_0 prec emax). apply round_le; auto with typeclass_instances; [apply (fexp_correct prec emax Hp)|]. apply Rmult_le_pos; [exact P|left; apply Rinv_0_lt_compat; exact Pn].
  - eapply Rle_lt_trans; [exact RB|]. apply bpow_lt. pose proof (prec1 prec). lia.
Qed.

Lemma mean_scaled l s : is_sum prec emax l s -> l <> [] -> (forall x, In x l -> is_finite x = true /\ Rabs (B2R x) <= B) -> INR (length l) <= bpow radix2 prec ->
  let q := fdiv prec emax s (of_nat prec emax (length l)) in
  is_finite q = true /\ Rabs (B2R q) <= B /\ Rabs (B2R q - real_mean (map (fun e => B2R e) l)) <= u * ((INR (length l) + 1) * B) /\ ((forall x, In x l -> 0 <= B2R x) -> 0 <= B2R q).
Proof.
  intros S NE L N q. destruct (sum_scaled l s S L N) as [F [Bs [Es Ns]]]. assert (M : (0 < length l)%nat) by (destruct l; [congruence|cbn; lia]).
  destruct (quotient_scaled s (length l) F M N Bs) as [Fq [Bq [Eq Nq]]]. fold q in Fq, Bq, Eq, Nq. split; [exact Fq|]. split; [exact Bq|]. split; [|auto].
  rewrite <- rsum_mean. assert (Pn : 0 < INR (length l)) by (apply lt_0_INR; exact M).
  assert (D : Rabs (B2R s / INR (length l) - rsum l / INR (length l)) <= u * (INR (length l) * B)).
  { unfold Rdiv. rewrite <- Rmult_minus_distr_r, Rabs_mult, (Rabs_pos_eq (/ INR (length l))) by (left; apply Rinv_0_lt_compat; exact Pn).
    apply (Rmult_le_reg_r (INR (length l))); [exact Pn|]. rewrite Rmult_assoc, Rinv_l by lra. lra. }
  replace (B2R q - rsum l / INR (length l)) with ((B2R q - B2R s / INR (length l)) + (B2R s / INR (length l) - rsum l / INR (length l))) by ring.
  eapply Rle_trans; [apply Rabs_triang|]. lra.
Qed.

(** ** Means that skip NaN *)
Lemma numbers_sum l : exists j, Permutation (map (fun x : fl => if is_nan x then fzero else x) l) (numbers l ++ repeat fzero j).
Proof.
  induction l as [|x l [j IH]]; [exists O; constructor|]. cbn [map numbers filter]. unfold numbers in IH. destruct (is_nan x) eqn:E; cbn [negb].
  - exists (S j). cbn [repeat]. etransitivity; [apply perm_skip; exact IH|]. apply Permutation_middle.
  - exists j. cbn [app]. apply perm_skip. exact IH.
Qed.
Lemma numbers_is_sum l s : is_sum prec emax (map (fun x : fl => if is_nan x then fzero else x) l) s -> is_sum prec emax (numbers l) s.
Proof.
  intros [t [i [P E]]]. destruct (numbers_sum l) as [j Q]. exists t, (j + i)%nat. split; [|exact E]. rewrite repeat_app, app_assoc. etransitivity; [exact P|]. apply Permutation_app_tail. exact Q.
Qed.

Variable fs : list fl -> fl.
Hypothesis SUM : forall l, is_sum prec emax l (fs l).

Lemma numbers_all l : (forall e, In e l -> is_finite e = true) -> numbers l = l.
Proof. intros H. unfold S_fenergy.numbers. induction l as [|x l IH]; [reflexivity|]. cbn [filter]. rewrite IH by (intros; apply H; right; assumption). specialize (H x (or_introl eq_refl)). destruct x; try discriminate; reflexivity. Qed.

Lemma device_mean nan_safe l : numbers l <> [] -> INR (length (numbers l)) <= bpow radix2 prec ->
  (forall e, In e l -> (is_finite e = true /\ Rabs (B2R e) <= B) \/ (nan_safe = true /\ e = B754_nan)) ->
  let q := (if nan_safe then nanmean prec emax fs else mean prec emax fs) l in
  is_finite q = true /\ Rabs (B2R q) <= B /\ Rabs (B2R q - real_mean (map (fun e => B2R e) (numbers l))) <= u * ((INR (length (numbers l)) + 1) * B) /\ ((forall x, In x (numbers l) -> 0 <= B2R x) -> 0 <= B2R q).
Proof.
  intros NE L H q.
  assert (G : forall x, In x (numbers l) -> is_finite x = true /\ Rabs (B2R x) <= B).
  { intros x Hx. apply filter_In in Hx. destruct Hx as [Hx Nx]. destruct (H x Hx) as [G|[_ ->]]; [exact G|discriminate]. }
  assert (Q : exists s, is_sum prec emax (numbers l) s /\ q = fdiv prec emax s (of_nat prec emax (length (numbers l)))).
  { subst q. destruct nan_safe.
    - exists (fs (map (fun x : fl => if is_nan x then fzero else x) l)). split; [apply numbers_is_sum, SUM|reflexivity].
    - assert (E : numbers l = l) by (apply numbers_all; intros e He'; destruct (H e He') as [[F _]|[D _]]; [exact F|discriminate]). rewrite E. exists (fs l). split; [apply SUM|reflexivity]. }
  destruct Q as [s [S ->]]. apply mean_scaled; assumption.
Qed.

Lemma allreduce_spec nan_safe n ls : energies_in_range prec emax k n nan_safe ls ->
  let q := allreduce_mean prec emax fs nan_safe ls in
  is_finite q = true /\ Rabs (B2R q) <= B /\ Rabs (B2R q - average (fun e => B2R e) ls) <= u * ((INR n + INR (length ls) + 2) * B) /\
  ((forall l x, In l ls -> In x (numbers l) -> 0 <= B2R x) -> 0 <= B2R q).
Proof.
  intros (NE & LD & LN & H) q. set (dm := if nan_safe then nanmean prec emax fs else mean prec emax fs) in *.
  assert (D : forall l, In l ls -> is_finite (dm l) = true /\ Rabs (B2R (dm l)) <= B /\ Rabs (B2R (dm l) - real_mean (map (fun e => B2R e) (numbers l))) <= u * ((INR n + 1) * B) /\ ((forall x, In x (numbers l) -> 0 <= B2R x) -> 0 <= B2R (dm l))).
  { intros l Hl. destruct (H l Hl) as [N1 [N2 N3]]. apply le_INR in N2. destruct (device_mean nan_safe l N1 ltac:(lra) N3) as [A1 [A2 [A3 A4]]]. fold dm in A1, A2, A3, A4. split; [exact A1|]. split; [exact A2|]. split; [|exact A4].
    eapply Rle_trans; [exact A3|]. apply Rmult_le_compat_l; [left; apply u_pos|]. apply Rmult_le_compat_r; [left; apply B_pos|]. lra. }
  destruct (mean_scaled (map dm ls) (fs (map dm ls)) (SUM _)) as [A1 [A2 [A3 A4]]].
  - destruct ls; [congruence|discriminate].
  - intros x Hx. apply in_map_iff in Hx. destruct Hx as (l & <- & Hl). destruct (D l Hl) as [Q1 [Q2 _]]. split; assumption.
  - rewrite map_length. exact LD.
  - change (fdiv prec emax (fs (map dm ls)) (of_nat prec emax (length (map dm ls)))) with q in *. split; [exact A1|]. split; [exact A2|]. split.
    + assert (E : Rabs (real_mean (map (fun e : fl => B2R e) (map dm ls)) - average (fun e => B2R e) ls) <= u * ((INR n + 1) * B)).
      { rewrite map_map. unfold S_fenergy.average. apply real_mean_diff; [exact NE|]. intros l Hl. apply D. exact Hl. }
      rewrite map_length in A3. set (m := real_mean (map (fun e : fl => B2R e) (map dm ls))) in *.
      replace (B2R q - average (fun e => B2R e) ls) with ((B2R q - m) + (m - average (fun e => B2R e) ls)) by ring.
      eapply Rle_trans; [apply Rabs_triang|].
      replace (u * ((INR n + INR (length ls) + 2) * B)) with (u * ((INR (length ls) + 1) * B) + u * ((INR n + 1) * B)) by ring. lra.
    + intros P. apply A4. intros x Hx. apply in_map_iff in Hx. destruct Hx as (l & <- & Hl). apply (D l Hl). intros x Hx. eapply P; eassumption.
Qed.
End Proofs.
