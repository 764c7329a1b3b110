(** P_fenergy3: signs, special values and clipping. *)
From Coq Require Import ZArith Reals.
From Flocq Require Import Core IEEE754.BinarySingleNaN Relative Mult_error Plus_error.
From Coq Require Import Lia Lra List Permutation Bool Arith.
Import ListNotations.
From Verif Require Import M_float S_float P_float P_float2 M_fwalk S_fwalk P_fwalk P_fwalk2 M_fenergy S_fenergy P_fenergy P_fenergy2.
Open Scope R_scope.

Section Special.
Variables prec emax : Z.
Context {Hp : Prec_gt_0 prec}.
Context {He : Prec_lt_emax prec emax}.
Notation fl := (binary_float prec emax).
Notation ex := (SpecFloat.fexp prec emax).
Notation rnd := (round radix2 ex ZnearestE).
Notation fzero := (fzero prec emax).
Notation fadd := (fadd prec emax). Notation fsub := (fsub prec emax). Notation fmul := (fmul prec emax). Notation fdiv := (fdiv prec emax).
Notation of_nat := (of_nat prec emax).
Notation numbers := (numbers prec emax).
Notation not_negative := (not_negative prec emax).
Notation pinf := (@B754_infinity prec emax false).

Lemma fin_pos m e H : 0 < B2R (@B754_finite prec emax false m e H). Proof. apply F2R_gt_0. reflexivity. Qed.
Lemma fin_neg m e H : B2R (@B754_finite prec emax true m e H) < 0. Proof. apply F2R_lt_0. reflexivity. Qed.

(** The forms of a number that is not negative. *)
Inductive nn_form : fl -> Prop := | nn_nan : nn_form B754_nan | nn_inf : nn_form pinf | nn_zero s : nn_form (B754_zero s) | nn_fin m e H : nn_form (B754_finite false m e H).
Lemma nn_iff x : not_negative x <-> nn_form x.
Proof.
  split.
  - intros [->|[->|[F P]]]; [constructor|constructor|]. destruct x as [s|s| |s m e H]; try discriminate; [constructor|]. destruct s; [pose proof (fin_neg m e H); lra|constructor].
  - intros [| |s|m e H]; [left|right; left|right; right; split; [reflexivity|cbn; lra]|right; right; split; [reflexivity|left; apply fin_pos]]; reflexivity.
Qed.
Lemma of_sf_inf (x : fl) s : B2SF x = SpecFloat.S754_infinity s -> x = B754_infinity s.
Proof. destruct x; cbn; intros E; try discriminate. congruence. Qed.

Lemma nn_add x y : not_negative x -> not_negative y -> not_negative (fadd x y).
Proof.
  rewrite (nn_iff x), (nn_iff y). intros X Y. apply nn_iff.
  destruct X as [| |s|m e H]; [destruct Y; constructor|destruct Y; constructor|destruct Y as [| |s'|m' e' H']; [constructor|constructor|destruct s, s'; constructor|constructor]|].
  destruct Y as [| |s'|m' e' H']; [constructor|constructor|constructor|]. apply nn_iff.
  pose proof (Bplus_correct prec emax Hp He mode_NE (B754_finite false m e H) (B754_finite false m' e' H') eq_refl eq_refl) as C. cbn [round_mode] in C.
  pose proof (fin_pos m e H). pose proof (fin_pos m' e' H'). destruct (Rlt_bool _ _) in C.
  - destruct C as [C1 [C2 _]]. right. right. unfold M_float.fadd. split; [exact C2|]. rewrite C1. apply (rnd_nonneg prec emax). lra.
  - destruct C as [C1 _]. right. left. apply of_sf_inf. exact C1.
Qed.

Inductive pd_form : fl -> Prop := | pd_inf : pd_form pinf | pd_zero : pd_form (B754_zero false) | pd_fin m e H : pd_form (B754_finite false m e H).
Lemma of_nat_form n : pd_form (of_nat n).
Proof.
  unfold M_fwalk.of_nat. pose proof (binary_normalize_correct prec emax Hp He mode_NE (Z.of_nat n) 0 false) as C. cbv zeta in C. cbn [round_mode] in C.
  assert (E : F2R (Float radix2 (Z.of_nat n) 0) = INR n) by (unfold F2R; cbn; rewrite INR_IZR_INZ; ring). rewrite E in C. pose proof (pos_INR n) as P.
  destruct (Rlt_bool (Rabs _) _) in C.
  - destruct C as [C1 [C2 C3]]. set (z := binary_normalize prec emax Hp He mode_NE (Z.of_nat n) 0 false) in *.
    assert (S : Bsign z = false) by (rewrite C3; case Rcompare_spec; intros; [lra|reflexivity|reflexivity]).
    destruct z as [s|s| |s m e H]; try discriminate; cbn in S; subst s; constructor.
  - rewrite Rlt_bool_false in C by exact P. cbn in C. apply of_sf_inf in C. rewrite C. constructor.
Qed.

Lemma nn_div x c : not_negative x -> pd_form c -> not_negative (fdiv x c).
Proof.
  rewrite (nn_iff x). intros X D. destruct X as [| |s|m e H].
  - destruct D; left; reflexivity.
  - destruct D; [left|right; left|right; left]; reflexivity.
  - apply nn_iff. destruct D; [|constructor|]; destruct s; constructor.
  - destruct D as [| |m' e' H']; [apply nn_iff; constructor|apply nn_iff; constructor|].
    pose proof (fin_pos m e H) as P1. pose proof (fin_pos m' e' H') as P2.
    pose proof (Bdiv_correct prec emax Hp He mode_NE (B754_finite false m e H) (B754_finite false m' e' H') (Rgt_not_eq _ _ P2)) as C. cbn [round_mode] in C.
    destruct (Rlt_bool _ _) in C.
    + destruct C as [C1 [C2 _]]. right. right. unfold M_fwalk.fdiv. split; [rewrite C2; reflexivity|]. rewrite C1. apply (rnd_nonneg prec emax). left. apply Rmult_lt_0_compat; [exact P1|apply Rinv_0_lt_compat; exact P2].
    + right. left. apply of_sf_inf. exact C.
Qed.
Lemma nn_mul x c : not_negative x -> pd_form c -> not_negative (fmul x c).
Proof.
  rewrite (nn_iff x). intros X D. destruct X as [| |s|m e H].
  - destruct D; left; reflexivity.
  - destruct D; [right; left|left|right; left]; reflexivity.
  - apply nn_iff. destruct D; [constructor|destruct s; constructor|destruct s; constructor].
  - destruct D as [| |m' e' H']; [apply nn_iff; constructor|apply nn_iff; constructor|].
    pose proof (fin_pos m e H) as P1. pose proof (fin_pos m' e' H') as P2.
    pose proof (Bmult_correct prec emax Hp He mode_NE (B754_finite false m e H) (B754_finite false m' e' H')) as C. cbn [round_mode] in C.
    destruct (Rlt_bool _ _) in C.
    + destruct C as [C1 [C2 _]]. right. right. unfold M_float.fmul. split; [rewrite C2; reflexivity|]. rewrite C1. apply (rnd_nonneg prec emax). left. apply Rmult_lt_0_compat; assumption.
    + right. left. apply of_sf_inf. exact C.
Qed.
Lemma nn_square d : not_negative (fmul d d).
Proof.
  destruct d as [s|s| |s m e H]; [right; right; destruct s; (split; [reflexivity|cbn; lra])|right; left; destruct s; reflexivity|left; reflexivity|].
  pose proof (Bmult_correct prec emax Hp He mode_NE (B754_finite s m e H) (B754_finite s m e H)) as C. cbn [round_mode] in C. destruct (Rlt_bool _ _) in C.
  - destruct C as [C1 [C2 _]]. right. right. unfold M_float.fmul. split; [rewrite C2; reflexivity|]. rewrite C1. apply (rnd_nonneg prec emax), Rle_0_sqr.
  - right. left. apply of_sf_inf. unfold M_float.fmul. rewrite C. destruct s; reflexivity.
Qed.

Lemma eval_closed (P : fl -> Prop) t : (forall x y, P x -> P y -> P (fadd x y)) -> (forall x, In x (leaves prec emax t) -> P x) -> P (eval prec emax t).
Proof. intros A. induction t as [x|a IHa b IHb]; intros L; cbn [eval leaves] in *; [apply L; left; reflexivity|]. apply A; [apply IHa|apply IHb]; intros x Hx; apply L, in_or_app; auto. Qed.
Lemma sum_closed (P : fl -> Prop) l s : (forall x y, P x -> P y -> P (fadd x y)) -> P fzero -> is_sum prec emax l s -> (forall x, In x l -> P x) -> P s.
Proof.
  intros A Z (t & j & Pm & <-) L. apply eval_closed; [exact A|]. intros x Hx. apply (Permutation_in _ Pm) in Hx. apply in_app_or in Hx. destruct Hx as [Hx|Hx]; [apply L; exact Hx|]. apply repeat_spec in Hx. subst x. exact Z.
Qed.
Lemma eval_absorbs (P : fl -> Prop) t x : (forall x y, P x \/ P y -> P (fadd x y)) -> In x (leaves prec emax t) -> P x -> P (eval prec emax t).
Proof. intros A. induction t as [y|a IHa b IHb]; cbn [eval leaves]; [intros [<-|[]]; auto|]. intros Hx Px. apply in_app_or in Hx. apply A. destruct Hx as [Hx|Hx]; [left|right]; auto. Qed.
Lemma sum_absorbs (P : fl -> Prop) l s x : (forall x y, P x \/ P y -> P (fadd x y)) -> is_sum prec emax l s -> In x l -> P x -> P s.
Proof. intros A (t & j & Pm & <-) Hx Px. apply (eval_absorbs P t x A); [|exact Px]. apply (Permutation_in _ (Permutation_sym Pm)). apply in_or_app. left. exact Hx. Qed.

Variable fs : list fl -> fl.
Hypothesis SUM : forall l, is_sum prec emax l (fs l).

Lemma nn_zero' : not_negative fzero. Proof. apply nn_iff. constructor. Qed.
Lemma mean_nn l : (forall x, In x l -> not_negative x) -> not_negative (mean prec emax fs l).
Proof. intros H. apply nn_div; [|apply of_nat_form]. apply (sum_closed not_negative l); [exact nn_add|exact nn_zero'|apply SUM|exact H]. Qed.
Lemma nanmean_nn l : (forall x, In x l -> not_negative x) -> not_negative (nanmean prec emax fs l).
Proof.
  intros H. apply nn_div; [|apply of_nat_form]. apply (sum_closed not_negative (map (fun x : fl => if is_nan x then fzero else x) l)); [exact nn_add|exact nn_zero'|apply SUM|].
  intros x Hx. apply in_map_iff in Hx. destruct Hx as (y & <- & Hy). destruct (is_nan y); [exact nn_zero'|apply H; exact Hy].
Qed.
Lemma variance_not_negative nchains nan_safe ls : not_negative (snd (statistics prec emax fs nchains nan_safe ls)).
Proof.
  cbn [statistics snd]. apply nn_div; [|apply of_nat_form]. apply nn_mul; [|apply of_nat_form]. unfold allreduce_mean. apply mean_nn. intros x Hx. apply in_map_iff in Hx. destruct Hx as (l & <- & Hl).
  apply in_map_iff in Hl. destruct Hl as (l' & <- & _).
  assert (Q : forall y, In y (map (fun d => fmul d d) l') -> not_negative y) by (intros y Hy; apply in_map_iff in Hy; destruct Hy as (d & <- & _); apply nn_square).
  destruct nan_safe; [apply nanmean_nn|apply mean_nn]; exact Q.
Qed.

(** ** Energies that are not numbers *)
Definition like (s : bool) (x : fl) : Prop := x = B754_nan \/ x = B754_infinity s.
Lemma like_add s x y : like s x \/ like s y -> like s (fadd x y).
Proof. intros [[->| ->]|[->| ->]]; [destruct y; left; reflexivity| |destruct x; left; reflexivity|]; [destruct y as [s'|s'| |s' m e H]|destruct x as [s'|s'| |s' m e H]]; try (right; reflexivity); try (left; reflexivity); destruct s, s'; try (right; reflexivity); left; reflexivity. Qed.
Lemma nan_add (x y : fl) : x = B754_nan \/ y = B754_nan -> fadd x y = B754_nan.
Proof. intros [->| ->]; [destruct y|destruct x]; reflexivity. Qed.
Lemma nan_div y : fdiv B754_nan y = B754_nan. Proof. destruct y; reflexivity. Qed.
Lemma nan_mul y : fmul B754_nan y = B754_nan. Proof. destruct y; reflexivity. Qed.
Lemma like_div s x c : like s x -> pd_form c -> like s (fdiv x c).
Proof. intros [->| ->] D; [rewrite nan_div; left; reflexivity|]. destruct D; [left|right|right]; destruct s; reflexivity. Qed.
Lemma mean_like s l x : In x l -> like s x -> like s (mean prec emax fs l).
Proof. intros Hx L. apply like_div; [|apply of_nat_form]. apply (sum_absorbs (like s) l _ x); [apply like_add|apply SUM|exact Hx|exact L]. Qed.
Lemma mean_nan l : In B754_nan l -> mean prec emax fs l = B754_nan.
Proof. intros Hx. unfold mean. rewrite (sum_absorbs (fun x => x = B754_nan) l (fs l) B754_nan); [apply nan_div|apply nan_add|apply SUM|exact Hx|reflexivity]. Qed.
Lemma all_like s ls l x : In l ls -> In x l -> like s x -> like s (allreduce_mean prec emax fs false ls).
Proof. intros Hl Hx L. unfold allreduce_mean. apply (mean_like s _ (mean prec emax fs l)); [apply in_map; exact Hl|]. eapply mean_like; eassumption. Qed.
Lemma all_nan ls l : In l ls -> In B754_nan l -> allreduce_mean prec emax fs false ls = B754_nan.
Proof. intros Hl Hx. unfold allreduce_mean. apply mean_nan. apply in_map_iff. exists l. split; [apply mean_nan; exact Hx|exact Hl]. Qed.

Lemma not_finite_statistics nchains ls l x : In l ls -> In x l -> is_finite x = false ->
  let st := statistics prec emax fs nchains false ls in is_finite (fst st) = false /\ (x = B754_nan -> fst st = B754_nan) /\ snd st = B754_nan.
Proof.
  intros Hl Hx F. cbn [statistics fst snd]. set (E := allreduce_mean prec emax fs false ls).
  assert (C : x = B754_nan \/ exists s, x = B754_infinity s) by (destruct x as [s|s| |s m e H]; try discriminate; [right; exists s; reflexivity|left; reflexivity]).
  assert (Q : is_finite E = false /\ (x = B754_nan -> E = B754_nan) /\ fsub x E = B754_nan).
  { destruct C as [->|[s ->]].
    - pose proof (all_nan ls l Hl Hx) as Q. fold E in Q. rewrite Q. auto.
    - destruct (all_like s ls l _ Hl Hx (or_intror eq_refl)) as [Q|Q]; fold E in Q; rewrite Q; (split; [reflexivity|]); (split; [discriminate|]); destruct s; reflexivity. }
  destruct Q as [Q1 [Q2 Q3]]. split; [exact Q1|]. split; [exact Q2|].
  rewrite (all_nan _ (map (fun d => fmul d d) (map (fun e => fsub e E) l))); [rewrite nan_mul; apply nan_div|unfold centered; apply (in_map (map (fun d => fmul d d))); apply (in_map (map (fun e => fsub e E))); exact Hl|].
  rewrite map_map. apply in_map_iff. exists x. rewrite Q3. split; [reflexivity|exact Hx].
Qed.

(** ** Clipping *)
(** Numbers that are not negative and not NaN. *)
Definition width_like (w : fl) : Prop := w = pinf \/ (is_finite w = true /\ 0 <= B2R w).
Lemma wl_nn w : width_like w <-> not_negative w /\ w <> B754_nan.
Proof. split; [intros [->|[F P]]; (split; [|intros E; subst; discriminate]); [right; left; reflexivity|right; right; auto]|]. intros [[->|[->|H]] N]; [congruence|left; reflexivity|right; exact H]. Qed.
Lemma wl_add x y : width_like x -> width_like y -> width_like (fadd x y).
Proof.
  intros X Y. apply wl_nn. split; [apply nn_add; apply wl_nn; assumption|].
  destruct X as [->|[Fx Px]], Y as [->|[Fy Py]]; try discriminate; [destruct y; try discriminate|destruct x; try discriminate|].
  pose proof (Bplus_correct prec emax Hp He mode_NE x y Fx Fy) as C. destruct (Rlt_bool _ _) in C.
  - destruct C as [_ [C2 _]]. unfold M_float.fadd. intros E. rewrite E in C2. discriminate.
  - destruct C as [C _]. unfold M_float.fadd. intros E. rewrite E in C. destruct (Bsign x); discriminate.
Qed.
Lemma wl_div_of_nat x n : width_like x -> (0 < n)%nat -> INR n <= bpow radix2 prec -> width_like (fdiv x (of_nat n)).
Proof.
  intros X N L. destruct (of_nat_R prec emax n L) as [Fn Vn]. assert (P : 0 < INR n) by (apply lt_0_INR; exact N).
  apply wl_nn. split; [apply nn_div; [apply wl_nn; exact X|apply of_nat_form]|]. destruct (of_nat_form n) as [| |m e H]; [discriminate|cbn in Vn; lra|].
  destruct X as [->|[Fx Px]]; [discriminate|].
  pose proof (Bdiv_correct prec emax Hp He mode_NE x (B754_finite false m e H) (Rgt_not_eq _ _ (fin_pos m e H))) as C. destruct (Rlt_bool _ _) in C.
  - destruct C as [_ [C2 _]]. unfold M_fwalk.fdiv. intros E. rewrite E, Fx in C2. discriminate.
  - unfold M_fwalk.fdiv. intros E. rewrite E in C. destruct (xorb _ _); discriminate.
Qed.
Lemma wl_mul t x : is_finite t = true -> 0 < B2R t -> width_like x -> width_like (fmul t x).
Proof.
  intros Ft Pt X. destruct t as [s|s| |s m e H]; try discriminate; [cbn in Pt; lra|]. destruct s; [pose proof (fin_neg m e H); lra|].
  destruct X as [->|[Fx Px]]; [left; reflexivity|].
  pose proof (Bmult_correct prec emax Hp He mode_NE (B754_finite false m e H) x) as C. cbn [round_mode] in C. destruct (Rlt_bool _ _) eqn:RB in C.
  - destruct C as [C1 [C2 _]]. right. unfold M_float.fmul. rewrite C1, C2, Fx. split; [reflexivity|]. apply (rnd_nonneg prec emax). apply Rmult_le_pos; [left; exact Pt|exact Px].
  - left. apply of_sf_inf. unfold M_float.fmul. rewrite C. destruct x as [s|s| |s m' e' H']; try discriminate. destruct s; [pose proof (fin_neg m' e' H'); lra|reflexivity].
Qed.
Lemma wl_deviation (e c : fl) : is_finite e = true -> is_finite c = true -> width_like (Babs (fsub e c)).
Proof.
  intros Fe Fc. pose proof (Bminus_correct prec emax Hp He mode_NE e c Fe Fc) as C. destruct (Rlt_bool _ _) in C.
  - destruct C as [_ [C2 _]]. right. unfold M_float.fsub. rewrite is_finite_Babs, B2R_Babs. split; [exact C2|apply Rabs_pos].
  - destruct C as [C _]. left. apply of_sf_inf. unfold M_float.fsub. destruct (Bminus mode_NE e c) as [s|s| |s m h H]; cbn in C; try discriminate; destruct (Bsign e); try discriminate; reflexivity.
Qed.
Lemma wl_not_nan x : width_like x -> is_nan x = false. Proof. intros [->|[F _]]; [reflexivity|destruct x; try discriminate; reflexivity]. Qed.

Lemma tv_width c l : is_finite c = true -> l <> [] -> INR (length l) <= bpow radix2 prec -> (forall e, In e l -> is_finite e = true) -> width_like (total_variation prec emax fs c l).
Proof.
  intros Fc NE L H. unfold total_variation, nanmean. set (d := map (fun e => Babs (fsub e c)) l).
  assert (W : forall x, In x d -> width_like x) by (intros x Hx; apply in_map_iff in Hx; destruct Hx as (e & <- & Hx); apply wl_deviation; [apply H; exact Hx|exact Fc]).
  assert (N : filter (fun x : fl => negb (is_nan x)) d = d). { clear -W. induction d as [|x d IH]; [reflexivity|]. cbn [filter]. rewrite (wl_not_nan x) by (apply W; left; reflexivity). cbn [negb]. f_equal. apply IH. intros; apply W; right; assumption. }
  rewrite N. apply wl_div_of_nat; [|unfold d; rewrite map_length; destruct l; [congruence|cbn; lia]|unfold d; rewrite map_length; exact L].
  eapply (sum_closed width_like); [exact wl_add|right; split; [reflexivity|cbn; lra]|apply SUM|]. intros x Hx. apply in_map_iff in Hx. destruct Hx as (y & <- & Hy). rewrite (wl_not_nan y) by (apply W; exact Hy). apply W. exact Hy.
Qed.

Lemma lower_bound (c w : fl) : is_finite c = true -> width_like w -> fsub c w = B754_infinity true \/ (is_finite (fsub c w) = true /\ B2R (fsub c w) <= B2R c).
Proof.
  intros Fc [->|[Fw Pw]]; [left; destruct c; try discriminate; reflexivity|].
  pose proof (Bminus_correct prec emax Hp He mode_NE c w Fc Fw) as C. cbn [round_mode] in C. destruct (Rlt_bool _ _) eqn:RB in C.
  - destruct C as [C1 [C2 _]]. right. unfold M_float.fsub. rewrite C1, C2. split; [reflexivity|]. apply round_le_generic; auto with typeclass_instances; [apply (fexp_correct prec emax Hp)|apply (fmt_B2R prec emax)|lra].
  - destruct C as [C1 C2]. left. apply of_sf_inf. unfold M_float.fsub. rewrite C1. destruct (Bsign c) eqn:S; [reflexivity|]. exfalso.
    assert (SW : Bsign w = true) by (destruct (Bsign w); [reflexivity|discriminate]). pose proof (sign_neg prec emax w Fw SW) as NW. assert (W0 : B2R w = 0) by lra.
    revert RB. rewrite W0, Rminus_0_r, (rnd_id prec emax). rewrite Rlt_bool_true; [discriminate|apply abs_B2R_lt_emax].
Qed.
Lemma upper_bound (c w : fl) : is_finite c = true -> width_like w -> fadd c w = B754_infinity false \/ (is_finite (fadd c w) = true /\ B2R c <= B2R (fadd c w)).
Proof.
  intros Fc [->|[Fw Pw]]; [left; destruct c; try discriminate; reflexivity|].
  pose proof (Bplus_correct prec emax Hp He mode_NE c w Fc Fw) as C. cbn [round_mode] in C. destruct (Rlt_bool _ _) eqn:RB in C.
  - destruct C as [C1 [C2 _]]. right. unfold M_float.fadd. rewrite C1, C2. split; [reflexivity|]. apply round_ge_generic; auto with typeclass_instances; [apply (fexp_correct prec emax Hp)|apply (fmt_B2R prec emax)|lra].
  - destruct C as [C1 C2]. left. apply of_sf_inf. unfold M_float.fadd. rewrite C1. destruct (Bsign c) eqn:S; [|reflexivity]. exfalso.
    pose proof (sign_neg prec emax w Fw (eq_sym C2)) as NW. assert (W0 : B2R w = 0) by lra.
    revert RB. rewrite W0, Rplus_0_r, (rnd_id prec emax). rewrite Rlt_bool_true; [discriminate|apply abs_B2R_lt_emax].
Qed.

Lemma clip_spec (e c lo hi : fl) : is_finite e = true -> (lo = B754_infinity true \/ (is_finite lo = true /\ B2R lo <= B2R c)) -> (hi = B754_infinity false \/ (is_finite hi = true /\ B2R c <= B2R hi)) ->
  let y := clip prec emax e lo hi in
  is_finite y = true /\ towards (B2R c) (B2R e) (B2R y) /\ Bleb lo y = true /\ Bleb y hi = true /\ (Bleb lo e = true -> Bleb e hi = true -> B2R y = B2R e).
Proof.
  intros Fe L H y. pose proof (finite_not_nan prec emax e Fe) as Ne.
  assert (M : exists m, fmax prec emax e lo = m /\ is_finite m = true /\ B2R e <= B2R m /\ (B2R m = B2R e \/ B2R m <= B2R c) /\ Bleb lo m = true /\ (Bleb lo e = true -> B2R m = B2R e)).
  { unfold fmax. rewrite Ne. destruct L as [->|[Fl Pl]].
    - exists e. cbn [is_nan]. replace (Bleb e (B754_infinity true)) with false by (destruct e as [s|s| |s m h Q]; try discriminate; reflexivity). split; [reflexivity|]. split; [exact Fe|]. split; [lra|]. split; [left; reflexivity|]. split; [destruct e as [s|s| |s m h Q]; try discriminate; reflexivity|reflexivity].
    - rewrite (finite_not_nan prec emax lo Fl), (Bleb_correct _ _ _ _ Fe Fl). case Rle_bool_spec; intros Q; [exists lo|exists e]; rewrite !(Bleb_correct _ _ _ _ Fl) by assumption; (split; [reflexivity|]); (split; [assumption|]).
      + split; [exact Q|]. split; [right; exact Pl|]. split; [apply Rle_bool_true; lra|]. case Rle_bool_spec; [intros; lra|discriminate].
      + split; [lra|]. split; [left; reflexivity|]. split; [apply Rle_bool_true; lra|]. reflexivity. }
  destruct M as (m & Em & Fm & M1 & M2 & M3 & M4). subst y. unfold clip. rewrite Em. cbv zeta. unfold fmin. rewrite (finite_not_nan prec emax m Fm).
  destruct H as [->|[Fh Ph]].
  - cbn [is_nan]. replace (Bleb m (B754_infinity false)) with true by (destruct m as [s|s| |s k h Q]; try discriminate; reflexivity). split; [exact Fm|]. split; [unfold towards; destruct M2 as [M2|M2]; [destruct (Rle_or_lt (B2R c) (B2R e)); [left|right]; lra|right; lra]|].
    split; [exact M3|]. split; [destruct m as [s|s| |s k h Q]; try discriminate; reflexivity|auto].
  - rewrite (finite_not_nan prec emax hi Fh), (Bleb_correct _ _ _ _ Fm Fh). case Rle_bool_spec; intros Q.
    + split; [exact Fm|]. split; [unfold towards; destruct M2 as [M2|M2]; [destruct (Rle_or_lt (B2R c) (B2R e)); [left|right]; lra|right; lra]|]. split; [exact M3|]. split; [rewrite (Bleb_correct _ _ _ _ Fm Fh); apply Rle_bool_true; exact Q|auto].
    + split; [exact Fh|]. split; [unfold towards; destruct M2 as [M2|M2]; [left; lra|lra]|]. split.
      * destruct L as [->|[Fl Pl]]; [destruct hi as [s|s| |s k h Z]; try discriminate; reflexivity|]. rewrite (Bleb_correct _ _ _ _ Fl Fh). apply Rle_bool_true. lra.
      * split; [rewrite (Bleb_correct _ _ _ _ Fh Fh); apply Rle_bool_true; lra|]. intros A1 A2. rewrite (Bleb_correct _ _ _ _ Fe Fh) in A2. revert A2. case Rle_bool_spec; [|discriminate]. intros A2 _. specialize (M4 A1). lra.
Qed.
End Special.
