(** P_fupdate5: the whole step of SPRING after its direction, entry by entry; sums from left to right. *)
From Coq Require Import ZArith Reals.
From Flocq Require Import Core IEEE754.BinarySingleNaN.
From Coq Require Import Lia Lra List Permutation Bool Arith.
Import ListNotations.
From Verif Require Import M_float S_float P_float P_float2 M_fwalk S_fwalk P_fwalk P_fwalk2 M_fenergy S_fenergy P_fenergy P_fenergy2 P_fenergy3 M_fpotential S_fpotential P_fpotential M_fupdate S_fupdate P_fupdate P_fupdate2 P_fupdate3 P_fupdate4.
Open Scope R_scope.

Lemma Forall2_len {A B} (rel : A -> B -> Prop) l m : Forall2 rel l m -> length l = length m.
Proof. induction 1; cbn; congruence. Qed.
Lemma Forall2_at {A B} (rel : A -> B -> Prop) l m i b : Forall2 rel l m -> nth_error m i = Some b -> exists a, nth_error l i = Some a /\ rel a b.
Proof. intros F. revert i. induction F as [|x y l m H F IH]; intros [|i] E; cbn in *; try discriminate; [injection E as <-; eauto|apply IH; exact E]. Qed.
Lemma Forall2_zip {A B C} (rel : C -> A -> Prop) (f : A -> B -> C) l m : length l = length m -> (forall a b, In a l -> In b m -> In (a, b) (combine l m) -> rel (f a b) a) -> Forall2 rel (zip_with f l m) l.
Proof. revert m. induction l as [|a l IH]; intros [|b m] E H; cbn in *; try discriminate; constructor; [apply H; auto|apply IH; [lia|]]. intros a' b' Ha Hb Hc. apply H; auto. Qed.
Lemma combine_lengths {A B} (l : list (list A)) (m : list (list B)) a b : map (@length A) l = map (@length B) m -> In (a, b) (combine l m) -> length a = length b.
Proof. revert m. induction l as [|x l IH]; intros [|y m] E H; cbn in *; try discriminate; [destruct H|]. injection E as E1 E2. destruct H as [H|H]; [injection H as -> ->; exact E1|apply (IH m E2 H)]. Qed.

Section Proofs.
Variables prec emax : Z.
Context {Hp : Prec_gt_0 prec}.
Context {He : Prec_lt_emax prec emax}.
Notation fl := (binary_float prec emax).
Notation ex := (SpecFloat.fexp prec emax).
Notation rnd := (round radix2 ex ZnearestE).
Notation u := (unit_roundoff prec).
Notation fadd := (fadd prec emax). Notation fsub := (fsub prec emax). Notation fmul := (fmul prec emax).
Notation fdiv := (fdiv prec emax). Notation fzero := (fzero prec emax). Notation fone := (fone prec emax).
Notation shape := (shape prec emax). Notation entry := (entry prec emax).
Notation tree := (list (list fl)).

(** Sums from left to right are sums. *)
Definition left_sum (l : list fl) : fl := fold_left fadd l fzero.
Lemma left_tree l : forall t, exists t', Permutation (leaves prec emax t') (l ++ leaves prec emax t) /\ eval _ _ t' = fold_left fadd l (eval _ _ t).
Proof.
  induction l as [|x l IH]; intros t; [exists t; split; [apply Permutation_refl|reflexivity]|].
  destruct (IH (M_float.Node prec emax t (M_float.Leaf prec emax x))) as [t' [P E]]. exists t'. split; [|exact E]. eapply Permutation_trans; [exact P|]. cbn [leaves]. rewrite app_assoc.
  eapply Permutation_trans; [apply Permutation_sym, Permutation_cons_append|]. reflexivity.
Qed.
Lemma left_is_sum l : is_sum prec emax l (left_sum l).
Proof. destruct (left_tree l (M_float.Leaf prec emax fzero)) as [t [P E]]. exists t, 1%nat. split; [exact P|exact E]. Qed.

(** Trees entry by entry. *)
Lemma entry_map (f : fl -> fl) (t : tree) j l : entry (map (map f) t) j l = option_map f (entry t j l).
Proof. unfold S_fupdate.entry. rewrite nth_error_map. destruct (nth_error t j) as [a|]; cbn; [apply nth_error_map|reflexivity]. Qed.
Lemma shape_nth (t s : tree) j a : shape t = shape s -> nth_error t j = Some a -> exists b, nth_error s j = Some b /\ length a = length b.
Proof.
  intros E H. apply (map_nth_error (@length fl)) in H. fold (shape t) in H. rewrite E in H. unfold S_fupdate.shape in H. rewrite nth_error_map in H.
  destruct (nth_error s j) as [b|]; cbn in H; [|discriminate]. injection H as H. eauto.
Qed.
Lemma entry_zip (f : fl -> fl -> fl) (t s : tree) j l x y : shape t = shape s -> entry t j l = Some x -> entry s j l = Some y -> entry (zip_with (zip_with f) t s) j l = Some (f x y).
Proof.
  intros E Hx Hy. unfold S_fupdate.entry in *. assert (EL : length t = length s) by (apply (f_equal (@length nat)) in E; unfold S_fupdate.shape in E; rewrite !map_length in E; exact E).
  rewrite zip_nth by exact EL. destruct (nth_error t j) as [a|] eqn:Ea; [|discriminate]. destruct (nth_error s j) as [b|] eqn:Eb; [|discriminate].
  destruct (shape_nth t s j a E Ea) as [b' [Q L]]. rewrite Eb in Q. injection Q as <-. rewrite zip_nth by exact L. rewrite Hx, Hy. reflexivity.
Qed.
Lemma shape_zip (f : fl -> fl -> fl) (t s : tree) : shape t = shape s -> shape (zip_with (zip_with f) t s) = shape t.
Proof.
  revert s. induction t as [|a t IH]; intros [|b s] E; cbn in *; try discriminate; [reflexivity|]. injection E as E1 E2. f_equal; [|apply IH; exact E2].
  clear - E1. revert b E1. induction a as [|x a IHa]; intros [|y b] E; cbn in *; try discriminate; [reflexivity|]. rewrite IHa; [reflexivity|lia].
Qed.
Lemma shape_rel (rel : fl -> fl -> Prop) (t s : tree) : Forall2 (Forall2 rel) t s -> shape t = shape s.
Proof. induction 1 as [|a b t s H F IH]; cbn; [reflexivity|]. f_equal; [apply (Forall2_len _ _ _ H)|exact IH]. Qed.
Lemma entry_rel (rel : fl -> fl -> Prop) (t s : tree) j l y : Forall2 (Forall2 rel) t s -> entry s j l = Some y -> exists x, entry t j l = Some x /\ rel x y.
Proof.
  intros F H. unfold S_fupdate.entry in *. destruct (nth_error s j) as [b|] eqn:Eb; [|discriminate]. destruct (Forall2_at _ _ _ j b F Eb) as [a [Ea Fa]]. rewrite Ea.
  apply (Forall2_at _ _ _ l y Fa H).
Qed.
Lemma entry_in (t : tree) j l x : entry t j l = Some x -> exists a, In a t /\ In x a.
Proof. unfold S_fupdate.entry. destruct (nth_error t j) as [a|] eqn:E; [|discriminate]. intros H. exists a. split; [apply nth_error_In in E; exact E|apply nth_error_In in H; exact H]. Qed.
Lemma entry_same (t s : tree) j l x : shape t = shape s -> entry t j l = Some x -> exists y, entry s j l = Some y.
Proof.
  intros E H. unfold S_fupdate.entry in *. destruct (nth_error t j) as [a|] eqn:Ea; [|discriminate]. destruct (shape_nth t s j a E Ea) as [b [Eb L]]. rewrite Eb.
  destruct (nth_error b l) as [y|] eqn:Ey; [eauto|]. apply nth_error_None in Ey. assert (nth_error a l <> None) by congruence. apply nth_error_Some in H0. lia.
Qed.

(** One device. *)
Definition fitting (lr : fl) (d : device prec emax) : Prop :=
  shape (d_grad _ _ d) = shape (d_params _ _ d) /\ shape (d_trace _ _ d) = shape (d_params _ _ d) /\
  (forall l x, In l (d_params _ _ d) -> In x l -> is_finite x = true /\ Rabs (B2R x) <= bpow radix2 (emax - 2)) /\
  (forall l g, In l (d_grad _ _ d) -> In g l -> is_finite g = true /\ Rabs (B2R lr * B2R g) <= bpow radix2 (emax - 2)) /\
  (forall l t, In l (d_trace _ _ d) -> In t l -> is_finite t = true).
Definition raw_ok (lr up g : fl) : Prop :=
  is_finite up = true /\ Rabs (B2R up - - (B2R lr * B2R g)) <= u * Rabs (B2R lr * B2R g) + u * bpow radix2 (2 - emax) /\ Rabs (B2R up) <= bpow radix2 (emax - 2).
Lemma trace_ok d lr : fitting lr d -> Forall2 (Forall2 (fun t g : fl => is_finite t = true /\ B2R t = B2R g)) (new_trace prec emax d) (d_grad _ _ d).
Proof.
  intros [E1 [E2 [_ [G T]]]]. assert (E : shape (d_grad _ _ d) = shape (d_trace _ _ d)) by congruence. unfold new_trace.
  assert (EL : length (d_grad _ _ d) = length (d_trace _ _ d)) by (apply (f_equal (@length nat)) in E; unfold S_fupdate.shape in E; rewrite !map_length in E; exact E).
  apply Forall2_zip; [exact EL|]. intros a b Ha Hb Hab. apply Forall2_zip; [apply (combine_lengths _ _ a b E Hab)|]. intros x y Hx Hy _.
  apply trace_entry; [apply (G a x Ha Hx)|apply (T b y Hb Hy)].
Qed.
Lemma raw_ok_all d lr : is_finite lr = true -> fitting lr d -> Forall2 (Forall2 (raw_ok lr)) (raw_updates prec emax lr d) (d_grad _ _ d).
Proof.
  intros FL Fd. pose proof (trace_ok d lr Fd) as F. destruct Fd as [_ [_ [_ [G _]]]]. unfold raw_updates. revert F G. generalize (new_trace prec emax d). generalize (d_grad _ _ d).
  intros gs ts F. induction F as [|a b ts gs H F IH]; intros G; constructor; [|apply IH; intros; apply (G l g); [right|]; assumption].
  assert (G' : forall g, In g b -> is_finite g = true /\ Rabs (B2R lr * B2R g) <= bpow radix2 (emax - 2)) by (intros g Hg; apply (G b g); [left; reflexivity|exact Hg]). clear - H G' FL Hp He.
  induction H as [|x y a b [X1 X2] H IH]; constructor; [|apply IH; intros g Hg; apply G'; right; exact Hg]. destruct (G' y (or_introl eq_refl)) as [Y1 Y2]. rewrite <- X2 in Y2.
  assert (B1 : Rabs (B2R lr * B2R x) <= bpow radix2 (emax - 1)) by (eapply Rle_trans; [exact Y2|apply bpow_le; lia]).
  destruct (raw_entry prec emax lr x FL X1 B1) as [A B]. split; [exact A|]. rewrite <- X2. split; [exact B|].
  destruct (mul_fin prec emax (Bopp lr) x) as [_ V]; [rewrite is_finite_Bopp; exact FL|exact X1|rewrite B2R_Bopp, Ropp_mult_distr_l_reverse, Rabs_Ropp; exact B1|]. rewrite V.
  apply (rnd_abs_le prec emax); [|rewrite B2R_Bopp, Ropp_mult_distr_l_reverse, Rabs_Ropp; exact Y2].
  apply (top_fmt prec emax). pose proof (emin_neg prec emax). pose proof (precmax prec emax). pose proof (prec1 prec). lia.
Qed.

Lemma spring_step fs (SUM : forall l, is_sum prec emax l (fs l)) pmapped (constraint : option fl) lr ds :
  (match constraint with Some c => is_finite c = true /\ 0 < B2R c | None => True end) -> is_finite lr = true -> INR (length ds) <= bpow radix2 prec ->
  (forall d, In d ds -> fitting lr d) ->
  let ups := map (raw_updates prec emax lr) ds in
  let hs := match constraint with Some c => constrain_norm prec emax fs pmapped c ups | None => ups end in
  entrywise prec emax (raw_ok lr) ups (map (d_grad prec emax) ds) /\
  forall i d, nth_error ds i = Some d -> exists new trace h, nth_error (spring_apply prec emax fs pmapped constraint lr ds) i = Some (new, trace) /\ nth_error hs i = Some h /\
    shape new = shape (d_params _ _ d) /\ shape h = shape (d_params _ _ d) /\
    (forall j l x y, entry (d_params _ _ d) j l = Some x -> entry h j l = Some y -> exists z, entry new j l = Some z /\ is_finite z = true /\
       Rabs (B2R z - (B2R x + B2R y)) <= u * Rabs (B2R x + B2R y) /\ (Rabs (B2R y) < u / 2 * Rabs (B2R x) -> B2R z = B2R x)) /\
    Forall2 (Forall2 (fun t g : fl => is_finite t = true /\ B2R t = B2R g)) trace (d_grad _ _ d).
Proof.
  intros CO FL L FIT ups hs.
  assert (RAW : entrywise prec emax (raw_ok lr) ups (map (d_grad prec emax) ds)).
  { unfold entrywise, ups. clear - FIT FL Hp He. induction ds as [|d ds IH]; constructor; [apply raw_ok_all; [exact FL|apply FIT; left; reflexivity]|apply IH; intros; apply FIT; right; assumption]. }
  split; [exact RAW|]. intros i d Hd.
  assert (HS : entrywise prec emax (fun h g : fl => is_finite h = true /\ Rabs (B2R h) <= Rabs (B2R g)) hs ups).
  { assert (AN : all_numbers prec emax ups).
    { intros t l x Ht Hl Hx. apply in_map_iff in Ht. destruct Ht as [d' [<- Hd']]. pose proof (raw_ok_all d' lr FL (FIT d' Hd')) as Q. clear - Q Hl Hx.
      induction Q as [|a b ts gs H F IH]; [destruct Hl|]. destruct Hl as [<-|Hl]; [|apply IH; exact Hl]. clear - H Hx. induction H as [|p q a b H F IH]; [destruct Hx|]. destruct Hx as [<-|Hx]; [apply H|apply IH; exact Hx]. }
    unfold hs. destruct constraint as [c|].
    - assert (NE : ups <> []) by (unfold ups; destruct ds; [destruct i; discriminate|discriminate]). assert (LU : INR (length ups) <= bpow radix2 prec) by (unfold ups; rewrite map_length; exact L).
      pose proof (constrain_safe prec emax fs SUM pmapped c ups NE LU (proj1 CO) (proj2 CO) AN) as Q. unfold entrywise in *. clear - Q.
      induction Q as [|a b xs ys H F IH]; constructor; [|exact IH]. clear - H. induction H as [|a b xs ys H F IH]; constructor; [|exact IH]. clear - H. induction H as [|a b xs ys [H1 [_ H2]] F IH]; constructor; [split; assumption|exact IH].
    - unfold entrywise. rewrite <- (map_id ups) at 1. apply Forall2_map_l. intros t Ht. rewrite <- (map_id t) at 1. apply Forall2_map_l. intros l Hl. rewrite <- (map_id l) at 1. apply Forall2_map_l. intros x Hx. split; [apply (AN t l x Ht Hl Hx)|lra]. }
  assert (UD : nth_error ups i = Some (raw_updates prec emax lr d)) by (unfold ups; apply map_nth_error; exact Hd).
  destruct (Forall2_at _ _ _ i _ HS UD) as [h [Hh RH]]. pose proof (FIT d (nth_error_In _ _ Hd)) as Fd. pose proof (raw_ok_all d lr FL Fd) as RD. pose proof (trace_ok d lr Fd) as TD.
  exists (zip_with (zip_with fadd) (d_params _ _ d) h), (new_trace prec emax d), h.
  assert (SH : shape h = shape (d_params _ _ d)). { rewrite (shape_rel _ _ _ RH), (shape_rel _ _ _ RD). apply Fd. }
  split.
  { unfold spring_apply. cbv zeta. rewrite zip_nth.
    - change (match constraint with Some c => constrain_norm prec emax fs pmapped c (map (raw_updates prec emax lr) ds) | None => map (raw_updates prec emax lr) ds end) with hs. rewrite Hd, Hh. reflexivity.
    - change (match constraint with Some c => constrain_norm prec emax fs pmapped c (map (raw_updates prec emax lr) ds) | None => map (raw_updates prec emax lr) ds end) with hs. rewrite (Forall2_len _ _ _ HS). unfold ups. rewrite map_length. reflexivity. }
  split; [exact Hh|]. split; [apply shape_zip; congruence|]. split; [exact SH|]. split; [|exact TD].
  intros j l x y Hx Hy. destruct (entry_in _ _ _ _ Hx) as [a [Ha Hxa]]. destruct Fd as [_ [_ [PX _]]]. destruct (PX a x Ha Hxa) as [FX BX].
  destruct (entry_same h (raw_updates prec emax lr d) j l y (shape_rel _ _ _ RH) Hy) as [w Hw]. destruct (entry_rel _ _ _ j l w RH Hw) as [y' [Q [FY BY]]]. rewrite Hy in Q. injection Q as <-.
  destruct (entry_same _ (d_grad _ _ d) j l w (shape_rel _ _ _ RD) Hw) as [gr Hg]. destruct (entry_rel _ _ _ j l gr RD Hg) as [w' [Q [_ [_ BW]]]]. rewrite Hw in Q. injection Q as <-.
  destruct (fmt_add prec emax x y FX FY BX ltac:(lra)) as [A [B C]]. exists (fadd x y). split; [apply entry_zip; [congruence|exact Hx|exact Hy]|]. split; [exact A|]. split; [exact C|].
  intros LS. rewrite B. apply (lost prec emax); [apply (fmt_B2R prec emax)|exact LS].
Qed.
End Proofs.
