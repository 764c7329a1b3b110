(** * Proofs: families of numbers and arrays that depend smoothly on one displacement *)
From Coquelicot Require Import Coquelicot.
From Coq Require Import String Reals List Bool Arith Lia Lra ZArith.
From Verif Require Import XReal Rsum Det S_physics M_slog M_models M_antisym M_construct M_dispatch S_models P_xsum P_split.
Import ListNotations.
Local Open Scope R_scope.

(** ** Real functions: differentiable near 0, with a derivative that is differentiable at 0 *)
Definition D2at (h : R -> R) (a : R) : Prop := exists h', locally a (fun y => is_derive h y (h' y)) /\ ex_derive h' a.
Definition D2 (g : R -> R) : Prop := D2at g 0.
Lemma D2_ext f g : (forall t, f t = g t) -> D2 f -> D2 g.
Proof.
  intros E (f' & L & D). exists f'. split; [|exact D]. eapply filter_imp; [|exact L]. cbn. intros y H. apply (is_derive_ext f); [exact E|exact H].
Qed.
Lemma D2_const c : D2 (fun _ => c).
Proof. exists (fun _ => 0). split; [apply filter_forall; intros y; apply (is_derive_const (V := R_NormedModule))|apply ex_derive_const]. Qed.
Lemma D2_id : D2 (fun t => t).
Proof. exists (fun _ => 1). split; [apply filter_forall; intros y; apply (is_derive_id (K := R_AbsRing))|apply ex_derive_const]. Qed.
Lemma D2_plus f g : D2 f -> D2 g -> D2 (fun t => f t + g t).
Proof.
  intros (f' & Lf & Df) (g' & Lg & Dg). exists (fun t => f' t + g' t). split.
  - generalize (filter_and _ _ Lf Lg). apply filter_imp. intros y (A & B). apply (is_derive_plus f g y (f' y) (g' y) A B).
  - apply (ex_derive_plus f' g' 0 Df Dg).
Qed.
Lemma at_point a (P : R -> Prop) : locally a P -> P a.
Proof. intros H. exact (locally_singleton a P H). Qed.
Lemma D2_ex f : D2 f -> ex_derive f 0.
Proof. intros (f' & L & _). exists (f' 0). exact (at_point 0 _ L). Qed.
Lemma D2_mult f g : D2 f -> D2 g -> D2 (fun t => f t * g t).
Proof.
  intros Hf Hg. pose proof (D2_ex f Hf) as Ef. pose proof (D2_ex g Hg) as Eg. destruct Hf as (f' & Lf & Df). destruct Hg as (g' & Lg & Dg). exists (fun t => f' t * g t + f t * g' t). split.
  - generalize (filter_and _ _ Lf Lg). apply filter_imp. intros y (A & B). apply (is_derive_mult f g y (f' y) (g' y) A B). intros n m. apply Rmult_comm.
  - apply (ex_derive_plus (fun t => f' t * g t) (fun t => f t * g' t) 0).
    + apply (ex_derive_mult f' g 0 Df Eg).
    + apply (ex_derive_mult f g' 0 Ef Dg).
Qed.
Lemma D2_opp f : D2 f -> D2 (fun t => - f t).
Proof. intros H. apply (D2_ext (fun t => -1 * f t)); [intros; ring|]. apply (D2_mult (fun _ => -1) f (D2_const _) H). Qed.
Lemma D2_minus f g : D2 f -> D2 g -> D2 (fun t => f t - g t).
Proof. intros Hf Hg. apply (D2_plus f (fun t => - g t) Hf (D2_opp g Hg)). Qed.
Lemma D2_comp h g : D2at h (g 0) -> D2 g -> D2 (fun t => h (g t)).
Proof.
  intros (h' & Lh & Dh) Hg. pose proof (D2_ex g Hg) as Eg. destruct Hg as (g' & Lg & Dg). exists (fun t => g' t * h' (g t)).
  assert (C : continuous g 0) by (apply (ex_derive_continuous (V := R_NormedModule) g 0 Eg)). split.
  - generalize (filter_and _ _ Lg (C _ Lh)). apply filter_imp. intros y (A & B). apply (is_derive_comp h g y (h' (g y)) (g' y) B A).
  - apply (ex_derive_mult g' (fun t => h' (g t)) 0 Dg). apply (ex_derive_comp h' g 0 Dh Eg).
Qed.
Lemma D2at_exp a : D2at exp a.
Proof. exists exp. split; [apply filter_forall; intros y; auto_derive; [exact Logic.I|ring]|exists (exp a); auto_derive; [exact Logic.I|ring]]. Qed.
Lemma D2at_inv a : a <> 0 -> D2at Rinv a.
Proof.
  intros H. exists (fun y => - / (y * y)). split.
  - assert (L : locally a (fun y => y <> 0)) by (apply (open_neq 0); exact H). revert L. apply filter_imp. intros y Hy. auto_derive; [exact Hy|]. field. exact Hy.
  - auto_derive. apply Rmult_integral_contrapositive_currified; exact H.
Qed.
Lemma D2at_sqrt a : 0 < a -> D2at sqrt a.
Proof.
  intros H. exists (fun y => / (2 * sqrt y)). split.
  - assert (L : locally a (fun y => 0 < y)) by (apply (open_gt 0); exact H). revert L. apply filter_imp. intros y Hy. auto_derive; [exact Hy|]. field. apply Rgt_not_eq, sqrt_lt_R0, Hy.
  - auto_derive. split; [exact H|]. split; [|exact Logic.I]. pose proof (sqrt_lt_R0 a H). lra.
Qed.
Lemma tanh_exp t : tanh t = 1 + -2 * / (exp (2 * t) + 1).
Proof.
  unfold tanh, sinh, cosh. pose proof (exp_pos t). pose proof (exp_pos (- t)). assert (E : exp (- t) = / exp t) by apply exp_Ropp. assert (E2 : exp (2 * t) = exp t * exp t) by (replace (2 * t) with (t + t) by ring; apply exp_plus).
  rewrite E, E2. field. repeat split; try lra; nra.
Qed.
Lemma D2_exp g : D2 g -> D2 (fun t => exp (g t)).
Proof. intros H. apply (D2_comp exp g); [apply D2at_exp|exact H]. Qed.
Lemma D2_inv g : g 0 <> 0 -> D2 g -> D2 (fun t => / g t).
Proof. intros N H. apply (D2_comp Rinv g); [apply D2at_inv; exact N|exact H]. Qed.
Lemma D2_sqrt g : 0 < g 0 -> D2 g -> D2 (fun t => sqrt (g t)).
Proof. intros N H. apply (D2_comp sqrt g); [apply D2at_sqrt; exact N|exact H]. Qed.
Lemma D2_tanh g : D2 g -> D2 (fun t => tanh (g t)).
Proof.
  intros H. apply (D2_ext (fun t => 1 + -2 * / (exp (2 * g t) + 1))); [intros; symmetry; apply tanh_exp|].
  apply D2_plus; [apply D2_const|]. apply D2_mult; [apply D2_const|]. apply (D2_inv (fun t => exp (2 * g t) + 1)); [pose proof (exp_pos (2 * g 0)); lra|].
  apply D2_plus; [|apply D2_const]. apply D2_exp, D2_mult; [apply D2_const|exact H].
Qed.
Lemma D2_smooth f : D2 f -> locally 0 (fun t => ex_derive f t) /\ ex_derive (Derive f) 0.
Proof.
  intros (f' & L & D). split; [revert L; apply filter_imp; intros y H; exists (f' y); exact H|].
  apply (ex_derive_ext_loc f'); [|exact D]. revert L. apply filter_imp. intros y H. symmetry. apply is_derive_unique. exact H.
Qed.

(** ** Numbers *)
Definition sm (F : R -> xr) : Prop := exists g, (forall t, F t = Fin (g t)) /\ D2 g.
Lemma sm_ext F G : (forall t, F t = G t) -> sm F -> sm G.
Proof. intros E (g & H & D). exists g. split; [intros t; rewrite <- E; apply H|exact D]. Qed.
Lemma sm_fin g : D2 g -> sm (fun t => Fin (g t)).
Proof. intros H. exists g. split; [reflexivity|exact H]. Qed.
Lemma sm_const a : isfin a = true -> sm (fun _ => a).
Proof. destruct a; try discriminate. intros _. apply (sm_fin (fun _ => r)), D2_const. Qed.
Lemma sm_add F G : sm F -> sm G -> sm (fun t => xadd (F t) (G t)).
Proof. intros (f & Ef & Df) (g & Eg & Dg). exists (fun t => f t + g t). split; [intros t; rewrite Ef, Eg; reflexivity|apply D2_plus; assumption]. Qed.
Lemma sm_mul F G : sm F -> sm G -> sm (fun t => xmul (F t) (G t)).
Proof. intros (f & Ef & Df) (g & Eg & Dg). exists (fun t => f t * g t). split; [intros t; rewrite Ef, Eg; reflexivity|apply D2_mult; assumption]. Qed.
Lemma sm_opp F : sm F -> sm (fun t => xopp (F t)).
Proof. intros (f & Ef & Df). exists (fun t => - f t). split; [intros t; rewrite Ef; reflexivity|apply D2_opp; assumption]. Qed.
Lemma sm_sub F G : sm F -> sm G -> sm (fun t => xsub (F t) (G t)).
Proof. intros (f & Ef & Df) (g & Eg & Dg). exists (fun t => f t - g t). split; [intros t; rewrite Ef, Eg; reflexivity|apply D2_minus; assumption]. Qed.
Lemma sm_exp F : sm F -> sm (fun t => xexp (F t)).
Proof. intros (f & Ef & Df). exists (fun t => exp (f t)). split; [intros t; rewrite Ef; reflexivity|apply D2_exp; assumption]. Qed.
Lemma sm_div_const F r : sm F -> r <> 0 -> sm (fun t => xdiv (F t) (Fin r)).
Proof.
  intros (f & Ef & Df) H. exists (fun t => f t * / r). split; [|apply D2_mult; [exact Df|apply D2_const]]. intros t. rewrite Ef. cbn. destruct (Req_EM_T r 0); [contradiction|reflexivity].
Qed.
Lemma sm_tanh F : sm F -> sm (fun t => xtanh (F t)).
Proof. intros (f & Ef & Df). exists (fun t => tanh (f t)). split; [intros t; rewrite Ef; reflexivity|apply D2_tanh; assumption]. Qed.
Lemma sm_gelu F : sm F -> sm (fun t => xgelu (F t)).
Proof.
  intros H. unfold xgelu. assert (C : forall r, sm (fun _ => Fin r)) by (intros r; apply sm_const; reflexivity). apply sm_mul; [exact H|]. apply sm_mul; [apply C|]. apply sm_add; [apply C|].
  apply sm_tanh, sm_mul; [apply C|]. apply sm_add; [exact H|]. apply sm_mul; [apply C|]. apply sm_mul; [exact H|]. apply sm_mul; exact H.
Qed.
Lemma sm_activation name act : get_named_activation_fn name = Some act -> forall F, sm F -> sm (fun t => act (F t)).
Proof. unfold get_named_activation_fn. destruct (String.eqb name "tanh"); [intros [= <-]; apply sm_tanh|]. destruct (String.eqb name "gelu"); [intros [= <-]; apply sm_gelu|discriminate]. Qed.

(** ** Arrays *)
Definition famL {A} (P : (R -> A) -> Prop) (X : R -> list A) : Prop := exists l : list (R -> A), (forall t, X t = map (fun f => f t) l) /\ Forall P l.
Notation fam1 := (famL sm).
Notation fam2 := (famL fam1).
Notation fam3 := (famL fam2).
Lemma fam_ext {A} (P : (R -> A) -> Prop) X Y : (forall t, X t = Y t) -> famL P X -> famL P Y.
Proof. intros E (l & H & F). exists l. split; [intros t; rewrite <- E; apply H|exact F]. Qed.
Lemma fam_impl {A} (P Q : (R -> A) -> Prop) X : (forall f, P f -> Q f) -> famL P X -> famL Q X.
Proof. intros E (l & H & F). exists l. split; [exact H|]. eapply Forall_impl; [exact E|exact F]. Qed.
Lemma fam_length {A} (P : (R -> A) -> Prop) X : famL P X -> forall t, length (X t) = length (X 0).
Proof. intros (l & H & _) t. rewrite !H, !map_length. reflexivity. Qed.
Lemma fam_nil {A} (P : (R -> A) -> Prop) : famL P (fun _ => []).
Proof. exists []. split; [reflexivity|constructor]. Qed.
Lemma fam_cons {A} (P : (R -> A) -> Prop) f X : P f -> famL P X -> famL P (fun t => f t :: X t).
Proof. intros Hf (l & H & F). exists (f :: l). split; [intros t; cbn; rewrite H; reflexivity|constructor; assumption]. Qed.
Lemma fam_one {A} (P : (R -> A) -> Prop) f : P f -> famL P (fun t => [f t]).
Proof. intros H. apply fam_cons; [exact H|apply fam_nil]. Qed.
Lemma fam_app {A} (P : (R -> A) -> Prop) X Y : famL P X -> famL P Y -> famL P (fun t => X t ++ Y t).
Proof. intros (l & H & F) (m & H' & F'). exists (l ++ m). split; [intros t; rewrite H, H', map_app; reflexivity|apply Forall_app; split; assumption]. Qed.
Lemma fam_map {A B} (P : (R -> A) -> Prop) (Q : (R -> B) -> Prop) (G : R -> A -> B) X : (forall f, P f -> Q (fun t => G t (f t))) -> famL P X -> famL Q (fun t => map (G t) (X t)).
Proof.
  intros HG (l & H & F). exists (map (fun f t => G t (f t)) l). split; [intros t; rewrite H, !map_map; reflexivity|]. apply Forall_map. eapply Forall_impl; [exact HG|exact F].
Qed.
Lemma fam_index {A B} (Q : (R -> B) -> Prop) (G : R -> A -> B) l : (forall a, In a l -> Q (fun t => G t a)) -> famL Q (fun t => map (G t) l).
Proof. intros H. exists (map (fun a t => G t a) l). split; [intros t; rewrite map_map; reflexivity|]. apply Forall_map, Forall_forall. exact H. Qed.
Lemma fam_const {A} (P : (R -> A) -> Prop) l : Forall (fun a => P (fun _ => a)) l -> famL P (fun _ => l).
Proof. intros H. apply (fam_ext P (fun _ => map (fun a => a) l)); [intros; apply map_id|]. apply (fam_index P (fun _ a => a)). intros a Ha. rewrite Forall_forall in H. apply H. exact Ha. Qed.
Lemma fam_zipw {A B C} (P : (R -> A) -> Prop) (Q : (R -> B) -> Prop) (T : (R -> C) -> Prop) (G : R -> A -> B -> C) X Y :
  (forall f g, P f -> Q g -> T (fun t => G t (f t) (g t))) -> famL P X -> famL Q Y -> famL T (fun t => zipw (G t) (X t) (Y t)).
Proof.
  intros HG (l & H & F) (m & H' & F'). exists (zipw (fun f g t => G t (f t) (g t)) l m). split.
  - intros t. rewrite H, H'. clear. revert m. induction l as [|f l IH]; intros [|g m]; try reflexivity. unfold zipw in *. cbn. f_equal. apply IH.
  - clear H H'. revert m F'. induction F as [|f l Hf _ IH]; intros m F'; [constructor|]. destruct F' as [|g m Hg F']; [constructor|]. unfold zipw in *. cbn. constructor; [apply HG; assumption|apply IH; exact F'].
Qed.
Lemma fam_zipw_l {A B C} (P : (R -> A) -> Prop) (T : (R -> C) -> Prop) (G : R -> A -> B -> C) X m :
  (forall f b, P f -> In b m -> T (fun t => G t (f t) b)) -> famL P X -> famL T (fun t => zipw (G t) (X t) m).
Proof.
  intros HG (l & H & F). exists (zipw (fun f b t => G t (f t) b) l m). split.
  - intros t. rewrite H. clear. revert m. induction l as [|f l IH]; intros [|g m]; try reflexivity. unfold zipw in *. cbn. f_equal. apply IH.
  - clear H. revert m HG. induction F as [|f l Hf _ IH]; intros m HG; [constructor|]. destruct m as [|g m]; [constructor|]. unfold zipw in *. cbn. constructor; [apply HG; [exact Hf|left; reflexivity]|].
    apply IH. intros f' b Hf' Hb. apply HG; [exact Hf'|right; exact Hb].
Qed.
Lemma fam_zipw_r {A B C} (P : (R -> A) -> Prop) (T : (R -> C) -> Prop) (G : R -> B -> A -> C) X m :
  (forall f b, P f -> In b m -> T (fun t => G t b (f t))) -> famL P X -> famL T (fun t => zipw (G t) m (X t)).
Proof.
  intros HG (l & H & F). exists (zipw (fun b f t => G t b (f t)) m l). split.
  - intros t. rewrite H. clear. revert m. induction l as [|f l IH]; intros [|g m]; try reflexivity. unfold zipw in *. cbn. f_equal. apply IH.
  - clear H. revert m HG. induction F as [|f l Hf _ IH]; intros m HG; destruct m as [|g m]; try constructor. unfold zipw in *. cbn. apply HG; [exact Hf|left; reflexivity].
    apply IH. intros f' b Hf' Hb. apply HG; [exact Hf'|right; exact Hb].
Qed.
Lemma fam_mapi {A B} (P : (R -> A) -> Prop) (Q : (R -> B) -> Prop) (G : R -> nat -> A -> B) X :
  (forall i f, P f -> Q (fun t => G t i (f t))) -> famL P X -> famL Q (fun t => mapi (G t) (X t)).
Proof.
  intros HG HX. unfold mapi. apply (fam_ext Q (fun t => zipw (G t) (seq 0 (length (X 0))) (X t))); [intros t; rewrite (fam_length P X HX t); reflexivity|].
  apply (fam_zipw_r P Q G X); [|exact HX]. intros f b Hf _. apply HG. exact Hf.
Qed.
(** Every element with its place. *)
Lemma fam_nth {A} (P : (R -> A) -> Prop) X d i : famL P X -> (i < length (X 0%R))%nat -> P (fun t => nth i (X t) (d t)) \/ exists f, P f /\ forall t, nth i (X t) (d t) = f t.
Proof.
  intros (l & H & F) Hi. right. rewrite H, map_length in Hi. destruct (nth_error l i) as [f|] eqn:E; [|apply nth_error_None in E; lia]. exists f. split.
  - rewrite Forall_forall in F. apply F. eapply nth_error_In; exact E.
  - intros t. rewrite H. rewrite (nth_indep _ (d t) (f t)) by (rewrite map_length; lia). rewrite (map_nth (fun g : R -> A => g t) l f i). rewrite (nth_error_nth l i f E). reflexivity.
Qed.
Definition respects {A} (P : (R -> A) -> Prop) : Prop := forall f g, (forall t, f t = g t) -> P f -> P g.
Lemma respects_sm : respects sm. Proof. intros f g. apply sm_ext. Qed.
Lemma respects_fam {A} (P : (R -> A) -> Prop) : respects (famL P). Proof. intros f g. apply fam_ext. Qed.
Lemma fam_at {A} (P : (R -> A) -> Prop) X d i : respects P -> famL P X -> (i < length (X 0%R))%nat \/ P (fun _ => d) -> P (fun t => nth i (X t) d).
Proof.
  intros Rp HX Hi. destruct (lt_dec i (length (X 0))) as [L|L].
  - destruct (fam_nth P X (fun _ => d) i HX L) as [H|(f & H & E)]; [exact H|]. apply (Rp f); [intros t; symmetry; apply E|exact H].
  - destruct Hi as [Hi|Hi]; [contradiction|]. apply (Rp (fun _ => d)); [|exact Hi]. intros t. rewrite nth_overflow; [reflexivity|]. rewrite (fam_length P X HX t). lia.
Qed.
Lemma sm_nth X i : fam1 X -> sm (fun t => nth i (X t) (Fin 0)).
Proof. intros H. apply (fam_at sm X (Fin 0) i respects_sm H). right. apply sm_const. reflexivity. Qed.
Lemma fam_row {A} (P : (R -> A) -> Prop) X i : famL (famL P) X -> famL P (fun t => nth i (X t) []).
Proof. intros H. apply (fam_at (famL P) X [] i (respects_fam P) H). right. apply fam_nil. Qed.
Lemma fam_hd {A} (P : (R -> A) -> Prop) X : famL (famL P) X -> famL P (fun t => hd [] (X t)).
Proof. intros H. apply (fam_ext P (fun t => nth 0 (X t) [])); [intros t; destruct (X t); reflexivity|apply fam_row; exact H]. Qed.
Lemma fam_concat {A} (P : (R -> A) -> Prop) X : famL (famL P) X -> famL P (fun t => concat (X t)).
Proof.
  intros (l & H & F). apply (fam_ext P (fun t => concat (map (fun f => f t) l))); [intros t; rewrite H; reflexivity|]. clear H. induction F as [|f l Hf _ IH]; [apply fam_nil|]. cbn [map concat]. apply fam_app; assumption.
Qed.
Lemma fam_firstn {A} (P : (R -> A) -> Prop) X n : famL P X -> famL P (fun t => firstn n (X t)).
Proof. intros (l & H & F). exists (firstn n l). split; [intros t; rewrite H, firstn_map; reflexivity|]. rewrite <- (firstn_skipn n l) in F. apply Forall_app in F. apply F. Qed.
Lemma fam_skipn {A} (P : (R -> A) -> Prop) X n : famL P X -> famL P (fun t => skipn n (X t)).
Proof. intros (l & H & F). exists (skipn n l). split; [intros t; rewrite H, skipn_map; reflexivity|]. rewrite <- (firstn_skipn n l) in F. apply Forall_app in F. apply F. Qed.
Lemma fam_repeat {A} (P : (R -> A) -> Prop) f n : P f -> famL P (fun t => repeat (f t) n).
Proof. intros H. induction n as [|n IH]; [apply fam_nil|]. cbn [repeat]. apply fam_cons; assumption. Qed.
Lemma fam_cut {A} (P : (R -> A) -> Prop) sizes X : famL P X -> famL (famL P) (fun t => cut sizes (X t)).
Proof.
  revert X. induction sizes as [|n sizes IH]; intros X H; [apply fam_nil|]. cbn [cut]. apply (fam_cons (famL P) (fun t => firstn n (X t)) (fun t => cut sizes (skipn n (X t)))); [apply fam_firstn; exact H|].
  apply (IH (fun t => skipn n (X t))), fam_skipn. exact H.
Qed.
(** Pieces that are not empty. *)
Definition full {A} (P : (R -> A) -> Prop) (B : R -> list A) : Prop := famL P B /\ B 0 <> [].
Lemma fam_cut_full {A} (P : (R -> A) -> Prop) sizes X : famL P X -> length (X 0) = list_sum sizes -> Forall (fun n => (0 < n)%nat) sizes -> famL (full P) (fun t => cut sizes (X t)).
Proof.
  intros H L F. revert X H L. induction F as [|n sizes Hn _ IH]; intros X H L; [apply fam_nil|]. cbn [cut]. cbn [list_sum fold_right] in L. fold (list_sum sizes) in L.
  apply (fam_cons (full P) (fun t => firstn n (X t)) (fun t => cut sizes (skipn n (X t)))).
  - split; [apply fam_firstn; exact H|]. intros E. apply (f_equal (@length A)) in E. rewrite firstn_length in E. cbn in E. lia.
  - apply (IH (fun t => skipn n (X t))); [apply fam_skipn; exact H|rewrite skipn_length; lia].
Qed.
Lemma fam_pieces {A} (P : (R -> A) -> Prop) s X : famL P X -> famL (famL P) (fun t => pieces s (X t)).
Proof.
  intros H. assert (G : forall idx start, famL (famL P) (fun t => split_at start idx (X t))).
  { induction idx as [|i idx IH]; intros start; cbn [split_at]; [apply fam_one, fam_skipn; exact H|]. apply (fam_cons (famL P) (fun t => firstn (i - start) (skipn start (X t))) (fun t => split_at i idx (X t))); [|apply IH].
    apply (fam_firstn P (fun t => skipn start (X t))), fam_skipn. exact H. }
  unfold pieces, split. destruct s as [k|idx]; [|apply G].
  apply (fam_ext _ (fun t => match (if Nat.eqb k 0 then None else if Nat.eqb (length (X 0) mod k) 0 then Some (split_at 0 (map (fun j => (S j * (length (X 0%R) / k))%nat) (seq 0 (k - 1))) (X t)) else None) with Some b => b | None => [] end)); [intros t; rewrite (fam_length P X H t); reflexivity|].
  destruct (Nat.eqb k 0); [apply fam_nil|]. destruct (Nat.eqb _ 0); [apply G|apply fam_nil].
Qed.
Lemma fam_pieces_full {A} (P : (R -> A) -> Prop) s sizes X : famL P X -> describes s sizes -> length (X 0) = list_sum sizes -> Forall (fun n => (0 < n)%nat) sizes -> famL (full P) (fun t => pieces s (X t)).
Proof.
  intros H D L F. apply (fam_ext _ (fun t => cut sizes (X t))); [|apply fam_cut_full; assumption]. intros t. symmetry. apply pieces_cut; [exact D|]. rewrite (fam_length P X H t). exact L.
Qed.
Lemma sm_sum X : fam1 X -> sm (fun t => xsum (X t)).
Proof.
  intros (l & H & F). apply (sm_ext (fun t => xsum (map (fun f => f t) l))); [intros t; rewrite H; reflexivity|]. clear H. induction F as [|f l Hf _ IH]; [apply (sm_const (Fin 0)); reflexivity|].
  cbn [map]. apply (sm_ext (fun t => xadd (f t) (xsum (map (fun f => f t) l)))); [intros t; rewrite xsum_cons; reflexivity|]. apply sm_add; assumption.
Qed.
Lemma sm_weighted w X : (forall i, isfin (w i) = true) -> fam1 X -> sm (fun t => weighted_sum w (X t)).
Proof.
  intros Hw H. unfold weighted_sum. apply sm_sum. change (fam1 (fun t => mapi (fun i a => xmul a (w i)) (X t))). apply (fam_mapi sm sm (fun _ i a => xmul a (w i))); [|exact H].
  intros i f Hf. apply sm_mul; [exact Hf|apply sm_const, Hw].
Qed.
Lemma fam_dense n k b X : (forall i f, isfin (k i f) = true) -> (forall c f, b = Some c -> isfin (c f) = true) -> fam1 X -> fam1 (fun t => dense n k b (X t)).
Proof.
  intros Hk Hb H. unfold dense. apply (fam_index sm (fun t f => let y := weighted_sum (fun i => k i f) (X t) in match b with None => y | Some b => xadd y (b f) end)). intros f _. cbv zeta.
  pose proof (sm_weighted (fun i => k i f) X (fun i => Hk i f) H) as W. destruct b as [c|]; [|exact W]. apply sm_add; [exact W|apply sm_const, (Hb c f eq_refl)].
Qed.
Lemma fam_mean d B : full fam1 B -> fam1 (fun t => vmean d (B t)).
Proof.
  intros (H & N). unfold vmean. apply (fam_ext sm (fun t => map (fun c => xdiv (xsum (map (fun r => nth c r (Fin 0)) (B t))) (Fin (INR (length (B 0))))) (seq 0 d))); [intros t; rewrite (fam_length _ B H t); reflexivity|].
  apply (fam_index sm (fun t c => xdiv (xsum (map (fun r => nth c r (Fin 0)) (B t))) (Fin (INR (length (B 0)))))). intros c _. apply sm_div_const; [|apply not_0_INR; destruct (B 0); [congruence|discriminate]].
  apply sm_sum. apply (fam_map fam1 sm (fun _ r => nth c r (Fin 0))); [|exact H]. intros f Hf. apply sm_nth. exact Hf.
Qed.

(** Softened norms *)
Definition sumsq (v : vec) : xr := xsum (map (fun a => xmul a a) v).
Lemma sm_sumsq X : fam1 X -> sm (fun t => sumsq (X t)).
Proof. intros H. apply sm_sum, (fam_map sm sm (fun _ a => xmul a a)); [|exact H]. intros f Hf. apply sm_mul; exact Hf. Qed.
Lemma sumsq_nonneg v r : sumsq v = Fin r -> 0 <= r.
Proof.
  unfold sumsq. revert r. induction v as [|a v IH]; intros r; [intros [= <-]; lra|]. cbn [map]. rewrite xsum_cons. destruct a; cbn; try (destruct (xsum (map (fun a => xmul a a) v)) eqn:E; try discriminate).
  cbn. intros [= <-]. specialize (IH _ eq_refl). nra.
Qed.
Lemma sm_softened s X : isfin s = true -> fam1 X -> s <> Fin 0 \/ sumsq (X 0) <> Fin 0 -> sm (fun t => softened s (norm (X t))).
Proof.
  intros Fs H N. destruct s as [s| | |]; try discriminate. destruct (sm_sumsq X H) as (g & Eg & Dg). assert (P : forall t, 0 <= g t) by (intros t; apply (sumsq_nonneg (X t)), Eg).
  assert (Q : 0 < g 0 + s * s). { destruct N as [N|N]; [assert (s <> 0) by (intros ->; apply N; reflexivity); specialize (P 0); nra|]. rewrite Eg in N. assert (g 0 <> 0) by (intros E; apply N; rewrite E; reflexivity). specialize (P 0). nra. }
  exists (fun t => sqrt (g t + s * s) - s). split.
  - intros t. unfold softened, norm. fold (sumsq (X t)). rewrite Eg. specialize (P t). cbn. destruct (Rlt_dec (g t) 0); [lra|]. cbn. rewrite sqrt_sqrt by exact P. destruct (Rlt_dec _ 0); [nra|reflexivity].
  - apply D2_minus; [|apply D2_const]. apply (D2_sqrt (fun t => g t + s * s)); [exact Q|]. apply D2_plus; [exact Dg|apply D2_const].
Qed.
(** Determinants *)
Lemma D2_sum {A} (f : A -> R -> R) l : (forall a, In a l -> D2 (f a)) -> D2 (fun t => lsum (map (fun a => f a t) l)).
Proof.
  intros H. induction l as [|a l IH]; [exact (D2_const 0)|]. apply (D2_ext (fun t => f a t + lsum (map (fun a => f a t) l))); [intros t; reflexivity|]. apply D2_plus; [apply H; left; reflexivity|apply IH; intros b Hb; apply H; right; exact Hb].
Qed.
Lemma D2_prod n (f : nat -> R -> R) : (forall i, (i < n)%nat -> D2 (f i)) -> D2 (fun t => Rprod n (fun i => f i t)).
Proof.
  induction n as [|n IH]; intros H; [exact (D2_const 1)|]. cbn [Rprod]. apply (D2_mult (fun t => Rprod n (fun i => f i t)) (f n)); [apply IH; intros i Hi; apply H; lia|apply H; lia].
Qed.
Lemma D2_det n (f : nat -> nat -> R -> R) : (forall i j, (i < n)%nat -> D2 (f i j)) -> D2 (fun t => Det.det n (fun i j => f i j t)).
Proof.
  intros H. destruct (det_leibniz n) as (l & _ & E). apply (D2_ext (fun t => lsum (map (fun p => fst p * Rprod n (fun i => f i (snd p i) t)) l))); [intros t; symmetry; apply E|].
  apply (D2_sum (fun p t => fst p * Rprod n (fun i => f i (snd p i) t))). intros p _. apply (D2_mult (fun _ => fst p) (fun t => Rprod n (fun i => f i (snd p i) t)) (D2_const _)). apply (D2_prod n (fun i t => f i (snd p i) t)). intros i Hi. apply H. exact Hi.
Qed.
