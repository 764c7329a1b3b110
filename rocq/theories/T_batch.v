(** * C83: batches of walkers *)
From Coq Require Import Reals String List Bool Arith Lia Lra Permutation.
From Verif Require Import XReal S_physics M_slog M_models M_antisym M_construct M_dispatch S_models S_antisym S_construct T_models T_construct S_dispatch P_leibniz P_construct3 P_dispatch T_dispatch.
From Verif Require Import M_tensor M_batch P_tab P_batch P_batch2 P_batch3 P_batch4 P_batch5 P_batch6 P_batch7 S_batch.
Import ListNotations.
Local Open Scope nat_scope.
Local Open Scope list_scope.

Lemma ends_nondec sizes : forall a, nondec a (ends a sizes) (a + list_sum sizes).
Proof.
  induction sizes as [|p r IH]; intros a; [cbn; lia|]. change (list_sum (p :: r)) with (p + list_sum r). destruct r as [|q r']; [cbn; lia|].
  change (ends a (p :: q :: r')) with ((a + p) :: ends (a + p) (q :: r')). cbn [nondec]. split; [lia|]. rewrite Nat.add_assoc. apply IH.
Qed.
Lemma describes_ordered s sizes : describes s sizes -> ordered_split s (list_sum sizes).
Proof. intros [_ [(k & p & -> & _)| ->]]; [exact Logic.I|]. exact (ends_nondec sizes 0). Qed.
Lemma rows_R2 n d x B b : shape x = d :: n :: B -> R2 B b d x (rows n d x b).
Proof. intros E. assert (L : List.length (rows n d x b) = n) by (unfold rows; rewrite map_length, seq_length; reflexivity). split; [rewrite L; exact E|]. rewrite L. reflexivity. Qed.
Lemma rows_walker n d x b : rows n d (walker n d x b) [] = rows n d x b.
Proof. reflexivity. Qed.
Lemma rows_shape n d x b : shape2 n d (rows n d x b).
Proof. split; [unfold rows; rewrite map_length, seq_length; reflexivity|]. apply Forall_forall. intros v Hv. apply in_map_iff in Hv. destruct Hv as (i & <- & _). rewrite map_length, seq_length. reflexivity. Qed.

(** The call on an array with any batch axes and the call on the rows of one walker: both raise or both return, the result has the
    batch axes of the input, and its entry at the walker is the value of that walker. *)
Theorem C83_batched_call : forall r m sizes d x B b, fits sizes d m -> array_ready r m -> 0 < list_sum sizes ->
  shape x = d :: list_sum sizes :: B -> position b B ->
  both (fun y v => has_batch y B /\ value_at y b = v) (nd_ferminet r m x) (ferminet_call m (rows (list_sum sizes) d x b)).
Proof.
  intros r m sizes d x B b (D & BF & IO) (H1 & H2 & H3 & H4) N S P. assert (L : List.length (rows (list_sum sizes) d x b) = list_sum sizes) by (apply rows_shape).
  pose proof (ferminet_R B b P r m d x (rows (list_sum sizes) d x b) (rows_R2 _ _ _ _ _ S)) as Q. rewrite L in Q.
  assert (E : P_batch.orel (RVal B b) (nd_ferminet r m x) (ferminet_call m (rows (list_sum sizes) d x b))).
  { apply Q; try assumption.
    - unfold ions_ok, ions_fit in *. destruct (so_ion_pos (fn_streams m)); [|exact Logic.I]. destruct IO as [_ IO]. apply Forall_forall. exact IO.
    - split; [apply describes_ordered; exact D|]. intros k Hk. apply describes_ordered. unfold built_for in BF. rewrite Forall_forall in BF. apply BF; exact Hk.
    - intros k Hk. destruct (l1_attention (b_one k)) as [a|] eqn:Ea; [|exact Logic.I]. apply (H4 k a Hk Ea). }
  clear Q. unfold P_batch.orel, both in *. destruct (nd_ferminet r m x) as [y|], (ferminet_call m _) as [v|]; try assumption. destruct E as (E1 & E2 & E3 & E4). split; [split; assumption|].
  unfold value_at. rewrite E3, E4. destruct v; reflexivity.
Qed.
Print Assumptions C83_batched_call.

(** Evaluating a batch is evaluating each of its walkers alone. *)
Theorem C83_walker_by_walker : forall r m sizes d x B b, fits sizes d m -> array_ready r m -> 0 < list_sum sizes ->
  shape x = d :: list_sum sizes :: B -> position b B ->
  both (fun y y1 => has_batch y B /\ has_batch y1 [] /\ value_at y b = value_at y1 []) (nd_ferminet r m x) (nd_ferminet r m (walker (list_sum sizes) d x b)).
Proof.
  intros r m sizes d x B b F A N S P. pose proof (C83_batched_call r m sizes d x B b F A N S P) as Q.
  pose proof (C83_batched_call r m sizes d (walker (list_sum sizes) d x b) [] [] F A N eq_refl (Forall2_nil _)) as Q1. rewrite rows_walker in Q1.
  unfold both in *. destruct (nd_ferminet r m x) as [y|], (ferminet_call m _) as [v|], (nd_ferminet r m (walker _ _ _ _)) as [y1|]; try contradiction; try exact Logic.I.
  destruct Q as [Q ->], Q1 as [Q1 ->]. repeat split; try apply Q; apply Q1.
Qed.
Print Assumptions C83_walker_by_walker.

(** So a walker's value depends on that walker only: not on the other walkers, on its place in the batch or on the shape of the batch. *)
Theorem C83_other_walkers : forall r m sizes d x x' B B' b b', fits sizes d m -> array_ready r m -> 0 < list_sum sizes ->
  shape x = d :: list_sum sizes :: B -> shape x' = d :: list_sum sizes :: B' -> position b B -> position b' B' ->
  (forall c i, c < d -> i < list_sum sizes -> entry x (c :: i :: b) = entry x' (c :: i :: b')) ->
  both (fun y y' => has_batch y B /\ has_batch y' B' /\ value_at y b = value_at y' b') (nd_ferminet r m x) (nd_ferminet r m x').
Proof.
  intros r m sizes d x x' B B' b b' F A N S S' P P' E. pose proof (C83_batched_call r m sizes d x B b F A N S P) as Q. pose proof (C83_batched_call r m sizes d x' B' b' F A N S' P') as Q'.
  replace (rows (list_sum sizes) d x' b') with (rows (list_sum sizes) d x b) in Q'.
  - unfold both in *. destruct (nd_ferminet r m x) as [y|], (ferminet_call m _) as [v|], (nd_ferminet r m x') as [y'|]; try contradiction; try exact Logic.I.
    destruct Q as [Q ->], Q' as [Q' ->]. repeat split; try apply Q; apply Q'.
  - unfold rows. apply map_ext_in. intros i Hi. apply map_ext_in. intros c Hc. apply in_seq in Hi, Hc. apply E; lia.
Qed.
Print Assumptions C83_other_walkers.

Lemma renumbering_lt n s i : renumbering n s -> i < n -> s i < n.
Proof. intros H Hi. assert (K : In (s i) (seq 0 n)) by (apply (Permutation_in _ H); apply in_map, in_seq; lia). apply in_seq in K. lia. Qed.
Lemma rows_renumber n d x b s : renumbering n s -> rows n d (renumber s x) b = reorder s (rows n d x b).
Proof.
  intros H. assert (L : List.length (rows n d x b) = n) by apply rows_shape. unfold reorder. destruct (rows n d x b) as [|a l] eqn:E.
  - cbn in L. subst n. reflexivity.
  - rewrite <- E. rewrite <- E in L. rewrite L. unfold rows at 1. apply map_ext_in. intros i Hi. apply in_seq in Hi.
    pose proof (renumbering_lt n s i H ltac:(lia)) as Hs. unfold rows. rewrite (nth_map0 _ _ _ 0) by (rewrite seq_length; exact Hs). rewrite seq_nth by exact Hs. reflexivity.
Qed.
(** Renumbering the electrons of the whole array within their spins multiplies the sign of every walker by the parity of the renumbering
    and keeps the logarithms. *)
Theorem C83_antisymmetric : forall r m sizes d s x B b, fits sizes d m -> array_ready r m -> 0 < list_sum sizes -> keeps_spins sizes s ->
  shape x = d :: list_sum sizes :: B -> position b B ->
  both (fun y y' => has_batch y B /\ has_batch y' B /\ value_at y' b = times_sign (sign_of (list_sum sizes) s) (value_at y b))
    (nd_ferminet r m x) (nd_ferminet r m (renumber s x)).
Proof.
  intros r m sizes d s x B b F A N K S P. pose proof (C83_batched_call r m sizes d x B b F A N S P) as Q. pose proof (C83_batched_call r m sizes d (renumber s x) B b F A N S P) as Q'.
  rewrite rows_renumber in Q' by apply K. rewrite (C44_antisymmetric m sizes d) in Q' by (assumption || apply rows_shape).
  unfold both in *. destruct (nd_ferminet r m x) as [y|], (ferminet_call m _) as [v|], (nd_ferminet r m (renumber s x)) as [y'|]; cbn [option_map] in *; try contradiction; try exact Logic.I.
  destruct Q as [Q ->], Q' as [Q' ->]. repeat split; try apply Q; apply Q'.
Qed.
Print Assumptions C83_antisymmetric.
Theorem C83_exchange : forall r m sizes d i j x B b y, fits sizes d m -> array_ready r m ->
  i < list_sum sizes -> j < list_sum sizes -> i <> j -> spin_of sizes i = spin_of sizes j ->
  shape x = d :: list_sum sizes :: B -> position b B -> nd_ferminet r m x = Some y ->
  exists y', nd_ferminet r m (renumber (exchange i j) x) = Some y' /\ has_batch y' B /\
    entry (fst y') b = xmul (Fin (-1)) (entry (fst y) b) /\ entry (snd y') b = entry (snd y) b.
Proof.
  intros r m sizes d i j x B b y F A Hi Hj N Sp S P E.
  pose proof (C83_antisymmetric r m sizes d (exchange i j) x B b F A ltac:(lia) ltac:(apply P_leibniz.exchange_keeps; assumption) S P) as Q. rewrite E in Q. unfold both in Q.
  destruct (nd_ferminet r m (renumber (exchange i j) x)) as [y'|]; [|contradiction]. exists y'. split; [reflexivity|]. destruct Q as (_ & Q & V). split; [exact Q|].
  rewrite P_leibniz.exchange_sign in V by assumption. unfold value_at, times_sign in V. injection V as V1 V2. split; assumption.
Qed.
Print Assumptions C83_exchange.

(** The FermiNet a job builds from its configuration is of this kind. *)
Lemma build_det_fn c sp ions bs th n : build_ferminet c sp ions bs th = Some n ->
  exists r, fn_det_fn n = option_map det_resnet_fn r.
Proof.
  unfold build_ferminet. cbv zeta. destruct (fc_use_det_resnet c).
  - destruct (get_named_activation_fn (rc_activation (fc_det_resnet c))) as [act|]; cbn [bind_opt]; [|discriminate].
    unfold check. destruct (kernel_init _ && bias_init _); cbn [bind_opt]; [|discriminate]. destruct (determinant_fn_mode _); cbn [bind_opt]; [|discriminate].
    destruct (_ && _); [|discriminate]. intros [= <-]. cbn [fn_det_fn].
    eexists (Some {| dr_ndense := _; dr_act := _; dr_inner := _; dr_final := _ |}). reflexivity.
  - cbn [bind_opt]. destruct (determinant_fn_mode _); cbn [bind_opt]; [|discriminate]. unfold check. destruct (_ && _); [|discriminate]. intros [= <-]. exists None. reflexivity.
Qed.
Theorem C83_job : forall m nelec ions q theta w d, ms_type m = "ferminet"%string -> model_of_job m nelec ions q theta = Some w ->
  0 < list_sum nelec -> ions <> [] -> shape2 (List.length ions) d ions -> sc_ei_norm (fc_streams (ms_ferminet m)) = true ->
  exists r n, w = WFermiNet n /\ fits nelec d n /\ array_ready r n /\ (r <> None <-> fc_use_det_resnet (ms_ferminet m) = true) /\
  forall x B b, shape x = d :: list_sum nelec :: B -> position b B ->
    both (fun y v => has_batch y B /\ value_at y b = v) (nd_ferminet r n x) (slog_psi w (rows (list_sum nelec) d x b)).
Proof.
  intros m nelec ions q th w d T E N NI Si En. set (c := ms_ferminet m) in *.
  destruct (C72_ferminet_options m nelec ions q th w T E) as (n & -> & F1 & F2 & F3 & F4 & F5 & F6 & F7 & F8 & F9 & F10 & F11 & F12 & F13). fold c in F2, F5, F12.
  assert (NE : nelec <> []) by (intros ->; cbn in N; lia). pose proof (spin_split_describes nelec NE) as D.
  assert (F : fits nelec d n).
  { split; [rewrite F1; exact D|]. split; [|unfold ions_fit; rewrite F3; exact Si]. unfold built_for. revert F2. rewrite F1. generalize (bc_ndense_list (fc_backflow c)) as l. generalize (fn_backflow n) as bs.
    intros bs l Fl. induction Fl as [|a b l bs (Q & _) _ IH]; constructor; [rewrite Q; exact D|exact IH]. }
  assert (RD : exists r, fn_det_fn n = option_map det_resnet_fn r).
  { unfold model_of_job, choose_model_type_in_model_config in E. cbv zeta in E. rewrite T in E.
    change (String.eqb "ferminet" "ferminet") with true in E. cbv iota in E. cbn [bind_opt get_model_from_config] in E.
    apply bind_some in E. destruct E as (bs & Eb & E). apply map_some in E. destruct E as (n' & En' & [= <-]). apply (build_det_fn _ _ _ _ _ _ En'). }
  destruct RD as [r RD]. exists r, n. split; [reflexivity|]. split; [exact F|].
  assert (A : array_ready r n).
  { split; [exact RD|]. split; [right; rewrite F5; exact En|]. split; [rewrite F3; congruence|]. intros k a Hk Ea. clear -F2 Hk Ea.
    induction F2 as [|s b l bs H _ IH]; [contradiction|]. destruct Hk as [->|Hk]; [|apply IH; exact Hk]. destruct H as (_ & _ & _ & _ & _ & _ & _ & _ & H & _). apply H. exact Ea. }
  split; [exact A|]. split; [rewrite <- F12, RD; destruct r; cbn; split; congruence|]. intros x B b S P. cbn [slog_psi]. apply C83_batched_call; assumption.
Qed.
Print Assumptions C83_job.

(** Two walkers of three electrons on a line (M_construct's example net, psi = (x1 - x2) y): values ln 4 with sign +1, and with sign -1. *)
Definition two_walkers : tensor :=
  {| shape := [1; 3; 2]; entry := fun i => match i with [_; k; w] => nth k (nth w [[Fin 3; Fin 1; Fin 2]; [Fin 1; Fin 3; Fin 2]] []) NaN | _ => NaN end |}.
Lemma line_ready mode full : array_ready None (line_net None mode full).
Proof. split; [reflexivity|]. split; [left; reflexivity|]. split; [discriminate|]. intros k a []. Qed.
Example C83_example : fits [2; 1] 1 (line_net None SIGN_COVARIANCE false) /\ array_ready None (line_net None SIGN_COVARIANCE false) /\ position [1] [2] /\
  exists y, nd_ferminet None (line_net None SIGN_COVARIANCE false) two_walkers = Some y /\ has_batch y [2] /\
    value_at y [0] = (Fin 1, Fin (ln 4)) /\ value_at y [1] = (Fin (-1), Fin (ln 4)).
Proof.
  split; [apply line_fits|]. split; [apply line_ready|]. split; [repeat constructor|]. destruct C44_example as (_ & _ & E1 & E2).
  pose proof (C83_batched_call None (line_net None SIGN_COVARIANCE false) [2; 1] 1 two_walkers [2] [0] (line_fits None SIGN_COVARIANCE false) (line_ready SIGN_COVARIANCE false) ltac:(cbn; lia) eq_refl ltac:(repeat constructor)) as Q1.
  pose proof (C83_batched_call None (line_net None SIGN_COVARIANCE false) [2; 1] 1 two_walkers [2] [1] (line_fits None SIGN_COVARIANCE false) (line_ready SIGN_COVARIANCE false) ltac:(cbn; lia) eq_refl ltac:(repeat constructor)) as Q2.
  change (rows (list_sum [2; 1]) 1 two_walkers [0]) with [[Fin 3]; [Fin 1]; [Fin 2]] in Q1. change (rows (list_sum [2; 1]) 1 two_walkers [1]) with [[Fin 1]; [Fin 3]; [Fin 2]] in Q2.
  rewrite E1 in Q1. rewrite E2 in Q2. unfold both in *. destruct (nd_ferminet None _ two_walkers) as [y|]; [|contradiction]. exists y. split; [reflexivity|]. split; [apply Q1|]. split; [apply Q1|apply Q2].
Qed.
Example C83_job_example : forall theta, exists w, model_of_job (default_sections "ferminet") [2; 2] [[Fin 0; Fin 0; Fin (-1)]; [Fin 0; Fin 0; Fin 1]] [Fin 1; Fin 3] theta = Some w /\
  0 < list_sum [2; 2] /\ shape2 2 3 [[Fin 0; Fin 0; Fin (-1)]; [Fin 0; Fin 0; Fin 1]] /\ sc_ei_norm (fc_streams (ms_ferminet (default_sections "ferminet"))) = true.
Proof.
  intros th. destruct (C72_example "ferminet" th) as ((w & E) & _); [left; reflexivity|]. exists w. split; [exact E|]. split; [cbn; lia|]. split; [|reflexivity]. split; [reflexivity|repeat constructor].
Qed.
