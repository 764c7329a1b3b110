(** * Proofs: sign covariance and invariance *)
From Coq Require Import Reals List Bool Arith Lia Lra Permutation.
From Verif Require Import XReal M_slog M_models M_antisym S_models S_antisym P_xsum P_slog P_split P_equiv P_inv P_flips P_sgn P_antisym P_antieq.
Import ListNotations.
Local Open Scope R_scope.

(** The sign in place i of symmetry k. *)
Definition bit_sign (k i : nat) : R := if Nat.testbit k i then -1 else 1.
Lemma bit_sign_unit k i : unit (bit_sign k i).
Proof. unfold bit_sign, unit. destruct (Nat.testbit k i); auto. Qed.
Lemma land_pow2 i k : Nat.eqb (Nat.land (2 ^ i) k) 0 = negb (Nat.testbit k i).
Proof.
  destruct (Nat.testbit k i) eqn:E; cbn [negb].
  - apply Nat.eqb_neq. intros H. assert (Q : Nat.testbit (Nat.land (2 ^ i) k) i = false) by (rewrite H; apply Nat.bits_0).
    rewrite Nat.land_spec, Nat.pow2_bits_true, E in Q. discriminate.
  - apply Nat.eqb_eq. apply Nat.bits_inj_0. intros j. rewrite Nat.land_spec, Nat.pow2_bits_eqb. destruct (Nat.eqb_spec i j) as [<-|]; [exact E|reflexivity].
Qed.
Lemma sign_array_bits i n : get_sign_array_1d i n = map (fun k => bit_sign k i) (seq 0 n).
Proof.
  unfold get_sign_array_1d. apply map_ext. intros k. rewrite land_pow2. unfold bit_sign. destruct (Nat.testbit k i); cbn; ring.
Qed.
Fixpoint mask (eps : list R) : nat :=
  match eps with
  | [] => O
  | e :: r => (2 * mask r + Nat.b2n (if Req_EM_T e (-1) then true else false))%nat
  end.
Lemma mask_bit eps i : Forall unit eps -> (i < length eps)%nat -> bit_sign (mask eps) i = nth i eps 1.
Proof.
  intros U. revert i. induction U as [|e r He _ IH]; intros i Hi; cbn [length] in Hi; [lia|]. unfold bit_sign. cbn [mask].
  destruct i as [|i].
  - rewrite Nat.testbit_0_r. cbn [nth]. destruct (Req_EM_T e (-1)) as [E|E]; destruct He as [H|H]; subst; lra.
  - rewrite Nat.testbit_succ_r. cbn [nth]. apply IH. lia.
Qed.
Lemma mask_lt eps : (mask eps < 2 ^ length eps)%nat.
Proof.
  induction eps as [|e r IH]; [cbn; lia|]. cbn [mask length]. rewrite Nat.pow_succ_r'. destruct (Req_EM_T e (-1)); cbn [Nat.b2n]; lia.
Qed.
Lemma lxor_lt a b n : (a < 2 ^ n)%nat -> (b < 2 ^ n)%nat -> (Nat.lxor a b < 2 ^ n)%nat.
Proof.
  intros Ha Hb. destruct (Nat.eq_dec (Nat.lxor a b) 0) as [E|E]; [rewrite E; lia|].
  destruct (Nat.eq_dec n 0) as [->|Hn]; [cbn in Ha, Hb; replace a with O in E by lia; replace b with O in E by lia; cbn in E; lia|].
  apply Nat.log2_lt_pow2; [lia|]. eapply Nat.le_lt_trans; [apply Nat.log2_lxor|].
  apply Nat.max_lub_lt; [destruct (Nat.eq_dec a 0) as [->|]|destruct (Nat.eq_dec b 0) as [->|]]; try (cbn; lia); apply Nat.log2_lt_pow2; lia.
Qed.
Lemma bit_sign_lxor k m i : bit_sign (Nat.lxor k m) i = bit_sign k i * bit_sign m i.
Proof. unfold bit_sign. rewrite Nat.lxor_spec. destruct (Nat.testbit k i), (Nat.testbit m i); cbn; ring. Qed.
Lemma lxor_perm m n : (m < 2 ^ n)%nat -> Permutation (map (fun k => Nat.lxor k m) (seq 0 (2 ^ n))) (seq 0 (2 ^ n)).
Proof.
  intros Hm. apply NoDup_Permutation_bis.
  - apply NoDup_map_on; [|apply seq_NoDup]. intros x y _ _ E.
    rewrite <- (Nat.lxor_0_r x), <- (Nat.lxor_0_r y), <- (Nat.lxor_nilpotent m), <- !Nat.lxor_assoc, E. reflexivity.
  - rewrite map_length. lia.
  - intros k Hk. apply in_map_iff in Hk. destruct Hk as (j & <- & Hj). apply in_seq in Hj. apply in_seq. split; [lia|]. apply lxor_lt; lia.
Qed.

Section Orbit.
Context {A : Type} (flip : R -> A -> A).
Hypothesis flip_flip : forall s t a, unit s -> unit t -> flip s (flip t a) = flip (s * t) a.

(** Symmetry k of a list, and its sign. *)
Definition symmetry (x : list A) (k : nat) : list A := mapi (fun i a => flip (bit_sign k i) a) x.
Definition symmetry_sign (n k : nat) : R := lprod (map (bit_sign k) (seq 0 n)).
Lemma concat_single {B} (l : list B) : concat (map (fun a => [a]) l) = l.
Proof. induction l as [|a l IH]; [reflexivity|]. cbn. rewrite IH. reflexivity. Qed.
Lemma orbit_spec x : get_sign_orbit_for_list flip x =
  (map (symmetry x) (seq 0 (2 ^ length x)), map (symmetry_sign (length x)) (seq 0 (2 ^ length x))).
Proof.
  unfold get_sign_orbit_for_list. cbv zeta. f_equal; apply map_ext_in; intros k Hk; apply in_seq in Hk.
  - rewrite mapi_compose. unfold symmetry. rewrite <- (concat_single (mapi (fun i a => flip (bit_sign k i) a) x)), mapi_compose. f_equal.
    unfold mapi. apply zipw_ext. intros i a. unfold get_sign_orbit_single. cbv zeta. cbn [fst].
    rewrite sign_array_bits, map_map. rewrite (nth_error_nth' _ (flip (bit_sign k i) a)) by (rewrite map_length, seq_length; lia).
    rewrite (nth_map_seq (fun k => flip (bit_sign k i) a)) by lia. reflexivity.
  - unfold symmetry_sign, lprod. f_equal. rewrite mapi_compose. unfold mapi.
    assert (G : forall o, zipw (fun b a => nth k (snd (get_sign_orbit_single flip a b (length x))) 0) (seq o (length x)) x = map (bit_sign k) (seq o (length x))).
    { enough (H : forall (y : list A) o, zipw (fun b a => nth k (get_sign_array_1d b (2 ^ length x)) 0) (seq o (length y)) y = map (bit_sign k) (seq o (length y))).
      { intros o. exact (H x o). }
      intros y. induction y as [|a y IH]; intros o; [reflexivity|]. unfold zipw in *. cbn [length seq combine map fst snd]. f_equal; [|apply IH].
      rewrite sign_array_bits. apply (nth_map_seq (fun k => bit_sign k o)). lia. }
    apply G.
Qed.
Lemma symmetry_flip x eps k : Forall unit eps -> length eps = length x -> symmetry (zipw flip eps x) k = symmetry x (Nat.lxor k (mask eps)).
Proof.
  intros U L. unfold symmetry. destruct x as [|d x'] eqn:E; [destruct eps; [reflexivity|discriminate]|]. rewrite <- E in *. clear E x'.
  apply (list_eq_nth _ _ d); [rewrite !mapi_length, zipw_length; lia|]. intros i Hi. rewrite mapi_length, zipw_length in Hi.
  rewrite !(mapi_nth _ _ i d) by (rewrite ?zipw_length; lia). rewrite (zipw_nth flip eps x i 1 d) by lia.
  rewrite flip_flip; [|apply bit_sign_unit|].
  - rewrite bit_sign_lxor, mask_bit by (assumption || lia). reflexivity.
  - rewrite Forall_forall in U. apply U. apply nth_In. lia.
Qed.
Lemma lprod_mul {B} (f g : B -> R) l : lprod (map (fun i => f i * g i) l) = lprod (map f l) * lprod (map g l).
Proof. induction l as [|a l IH]; cbn; [ring|]. fold (lprod (map f l)) (lprod (map g l)) (lprod (map (fun i => f i * g i) l)). rewrite IH. ring. Qed.
Lemma symmetry_sign_flip eps k : Forall unit eps -> symmetry_sign (length eps) (Nat.lxor k (mask eps)) = symmetry_sign (length eps) k * lprod eps.
Proof.
  intros U. unfold symmetry_sign. rewrite (map_ext_in _ (fun i => bit_sign k i * nth i eps 1)).
  - rewrite lprod_mul, map_seq_nth. reflexivity.
  - intros i Hi. apply in_seq in Hi. rewrite bit_sign_lxor, mask_bit by (assumption || lia). reflexivity.
Qed.
Lemma symmetry_sign_unit n k : unit (symmetry_sign n k).
Proof.
  unfold symmetry_sign. apply lprod_unit. apply Forall_map. apply Forall_forall. intros i _. apply bit_sign_unit.
Qed.

(** The list of signed results: flipping the inputs reorders it and multiplies every sign. *)
Definition results {B} (fn : list A -> B) (ao : B -> R -> B) (x : list A) : list B :=
  map (fun k => ao (fn (symmetry x k)) (symmetry_sign (length x) k)) (seq 0 (2 ^ length x)).
Lemma apply_spec {B C} (fn : list A -> B) (ao : B -> R -> B) (tot : list B -> C) x :
  apply_sign_symmetry_to_fn flip fn ao tot x = tot (results fn ao x).
Proof. unfold apply_sign_symmetry_to_fn. rewrite orbit_spec. f_equal. rewrite map_map. apply zipw_maps. Qed.
Lemma results_flip {B} (fn : list A -> B) (ao : B -> R -> B) (act : B -> B) x eps : Forall unit eps -> length eps = length x ->
  (forall v s, unit s -> ao v s = act (ao v (s * lprod eps))) ->
  Permutation (results fn ao (zipw flip eps x)) (map act (results fn ao x)).
Proof.
  intros U L H. unfold results. rewrite zipw_length, L, Nat.min_id, map_map.
  etransitivity; [|apply Permutation_map; apply (lxor_perm (mask eps) (length x)); rewrite <- L; apply mask_lt].
  rewrite map_map. erewrite map_ext; [reflexivity|]. intros k. cbn beta. rewrite symmetry_flip by assumption.
  assert (E := symmetry_sign_flip eps k U). rewrite L in E. rewrite E. rewrite H at 1 by apply symmetry_sign_unit. reflexivity.
Qed.
End Orbit.

Lemma vscale_vscale s t v : unit s -> unit t -> vscale (Fin s) (vscale (Fin t) v) = vscale (Fin (s * t)) v.
Proof. intros Hs Ht. unfold vscale. rewrite map_map. apply map_ext. intros a. apply (sg_mul s t a Hs Ht). Qed.
Lemma vsum_perm dout l l' : Permutation l l' -> vsum dout l = vsum dout l'.
Proof. intros P. unfold vsum. apply map_ext. intros c. apply xsum_perm. apply Permutation_map. exact P. Qed.
Lemma vsum_vscale dout s l : unit s -> vsum dout (map (vscale (Fin s)) l) = vscale (Fin s) (vsum dout l).
Proof.
  intros U. unfold vsum. unfold vscale at 2. rewrite map_map. apply map_ext. intros c. rewrite map_map.
  rewrite (map_ext _ (fun v => sg s (nth c v (Fin 0)))) by (intros v; apply nth_vscale).
  rewrite <- (map_map (fun v => nth c v (Fin 0)) (sg s)). apply sg_sum. exact U.
Qed.
Lemma vscale_back e s v : unit e -> unit s -> vscale (Fin s) v = vscale (Fin e) (vscale (Fin (s * e)) v).
Proof.
  intros He Hs. rewrite vscale_vscale by (assumption || apply unit_mul; assumption). do 2 f_equal.
  rewrite <- Rmult_assoc, (Rmult_comm e s), Rmult_assoc, unit_sq, Rmult_1_r by exact He. reflexivity.
Qed.
Lemma covariant_vec dout fn x eps : Forall unit eps -> length eps = length x ->
  make_array_list_fn_sign_covariant dout fn (zipw (fun s => vscale (Fin s)) eps x) = vscale (Fin (lprod eps)) (make_array_list_fn_sign_covariant dout fn x).
Proof.
  intros U L. unfold make_array_list_fn_sign_covariant. rewrite !apply_spec.
  assert (Ue : unit (lprod eps)) by (apply lprod_unit; exact U).
  rewrite (vsum_perm dout _ _ (results_flip (fun s => vscale (Fin s)) vscale_vscale fn (fun v s => vscale (Fin s) v) (vscale (Fin (lprod eps))) x eps U L (fun v s Hs => vscale_back (lprod eps) s v Ue Hs))).
  apply vsum_vscale. exact Ue.
Qed.
Lemma invariant_vec dout fn x eps : Forall unit eps -> length eps = length x ->
  make_array_list_fn_sign_invariant dout fn (zipw (fun s => vscale (Fin s)) eps x) = make_array_list_fn_sign_invariant dout fn x.
Proof.
  intros U L. unfold make_array_list_fn_sign_invariant. rewrite !apply_spec.
  rewrite (vsum_perm dout _ _ (results_flip (fun s => vscale (Fin s)) vscale_vscale fn (fun v _ => v) (fun v => v) x eps U L (fun v s Hs => eq_refl))).
  rewrite map_id. reflexivity.
Qed.
(** (n, d) arrays. *)
Lemma mscale_mscale s t m : unit s -> unit t -> map (vscale (Fin s)) (map (vscale (Fin t)) m) = map (vscale (Fin (s * t))) m.
Proof. intros Hs Ht. rewrite map_map. apply map_ext. intros v. apply vscale_vscale; assumption. Qed.
Lemma msum_perm n dout l l' : Permutation l l' -> msum n dout l = msum n dout l'.
Proof. intros P. unfold msum. apply map_ext. intros c. apply vsum_perm. apply Permutation_map. exact P. Qed.
Lemma nth_mscale s m i : nth i (map (vscale (Fin s)) m) [] = vscale (Fin s) (nth i m []).
Proof. apply (map_nth (vscale (Fin s)) m [] i). Qed.
Lemma msum_mscale n dout s l : unit s -> msum n dout (map (map (vscale (Fin s))) l) = map (vscale (Fin s)) (msum n dout l).
Proof.
  intros U. unfold msum. rewrite map_map. apply map_ext. intros i. rewrite map_map.
  rewrite (map_ext _ (fun m => vscale (Fin s) (nth i m []))) by (intros m; apply nth_mscale).
  rewrite <- (map_map (fun m => nth i m []) (vscale (Fin s))). apply vsum_vscale. exact U.
Qed.
Lemma covariant_mat n dout fn x eps : Forall unit eps -> length eps = length x ->
  make_array_list_fn_sign_covariant2 n dout fn (zipw (fun s => map (vscale (Fin s))) eps x) =
  map (vscale (Fin (lprod eps))) (make_array_list_fn_sign_covariant2 n dout fn x).
Proof.
  intros U L. unfold make_array_list_fn_sign_covariant2. rewrite !apply_spec.
  assert (Ue : unit (lprod eps)) by (apply lprod_unit; exact U).
  rewrite (msum_perm n dout _ _ (results_flip (fun s => map (vscale (Fin s))) mscale_mscale fn (fun m s => map (vscale (Fin s)) m) (map (vscale (Fin (lprod eps)))) x eps U L
    (fun m s Hs => eq_trans (map_ext _ _ (fun v => vscale_back (lprod eps) s v Ue Hs) m) (eq_sym (map_map _ _ m))))).
  apply msum_mscale. exact Ue.
Qed.
(** Sign-log arrays. *)
Lemma slog_flip_signed s p : slog_flip s p = signed s p.
Proof.
  unfold slog_flip, slog_multiply, signed. cbn [fst snd]. f_equal; [apply xmul_comm|]. destruct (snd p); cbn; try reflexivity. f_equal. ring.
Qed.
Lemma slflip_slflip s t v : unit s -> unit t -> map (slog_flip s) (map (slog_flip t) v) = map (slog_flip (s * t)) v.
Proof. intros Hs Ht. rewrite map_map. apply map_ext. intros p. rewrite !slog_flip_signed. apply signed_mul; assumption. Qed.
Lemma slog_vsum_perm dout l l' : Permutation l l' -> slog_vsum dout l = slog_vsum dout l'.
Proof. intros P. unfold slog_vsum. f_equal. apply map_ext. intros c. apply log_linear_exp_perm. apply Permutation_map. exact P. Qed.
Lemma nth_signed s v c : nth c (map (signed s) v) (Fin 0, Fin 0) = signed s (nth c v (Fin 0, Fin 0)).
Proof.
  rewrite <- (map_nth (signed s)). f_equal. unfold signed, sg. cbn. f_equal. f_equal. ring.
Qed.
Lemma slog_vsum_signed dout s l : unit s -> slog_vsum dout (map (map (signed s)) l) = option_map (map (signed s)) (slog_vsum dout l).
Proof.
  intros U. unfold slog_vsum. rewrite <- sequence_map_opt. f_equal. apply map_ext. intros c. rewrite map_map.
  rewrite (map_ext _ (fun v => signed s (nth c v (Fin 0, Fin 0)))) by (intros v; apply nth_signed).
  rewrite <- (map_map (fun v => nth c v (Fin 0, Fin 0)) (signed s)). apply log_linear_exp_signed. exact U.
Qed.
Lemma covariant_slog dout fn x eps : Forall unit eps -> length eps = length x ->
  make_sl_array_list_fn_sign_covariant dout fn (zipw (fun s => map (slog_flip s)) eps x) =
  option_map (map (signed (lprod eps))) (make_sl_array_list_fn_sign_covariant dout fn x).
Proof.
  intros U L. unfold make_sl_array_list_fn_sign_covariant. rewrite !apply_spec.
  assert (Ue : unit (lprod eps)) by (apply lprod_unit; exact U).
  assert (B : forall (v : list slog) s, unit s -> map (signed s) v = map (signed (lprod eps)) (map (signed (s * lprod eps)) v)).
  { intros v s Hs. rewrite map_map. apply map_ext. intros p. rewrite signed_mul by (assumption || apply unit_mul; assumption). f_equal.
    rewrite <- Rmult_assoc, (Rmult_comm (lprod eps) s), Rmult_assoc, unit_sq, Rmult_1_r by exact Ue. reflexivity. }
  change (fun v s => map (fun p : slog => (xmul (Fin s) (fst p), snd p)) v) with (fun (v : list slog) s => map (signed s) v).
  rewrite (slog_vsum_perm dout _ _ (results_flip (fun s => map (slog_flip s)) slflip_slflip fn (fun v s => map (signed s) v) (map (signed (lprod eps))) x eps U L B)).
  apply slog_vsum_signed. exact Ue.
Qed.
(** Products of two features. *)
Lemma dot_signed s t a b : unit s -> unit t -> dot (vscale (Fin s) a) (vscale (Fin t) b) = sg (s * t) (dot a b).
Proof.
  intros Hs Ht. unfold dot, vscale. rewrite <- sg_sum by (apply unit_mul; assumption). rewrite map_zipw, zipw_map_l, zipw_map_r. f_equal. apply zipw_ext.
  intros x y. fold (sg s x) (sg t y). rewrite sg_xmul_l, sg_xmul_r, sg_mul by assumption. reflexivity.
Qed.
Lemma weighted_signed s w l : unit s -> weighted_sum w (map (sg s) l) = sg s (weighted_sum w l).
Proof.
  intros U. unfold weighted_sum. rewrite map_length, <- sg_sum by exact U. f_equal. rewrite map_map. generalize (seq 0 (length l)).
  induction l as [|a l IH]; intros [|i q]; try reflexivity. cbn [map combine fst snd]. f_equal; [apply sg_xmul_l; exact U|apply IH].
Qed.
Lemma products_signed features w s t up down : unit s -> unit t ->
  products_sign_covariance features w [map (vscale (Fin s)) up; map (vscale (Fin t)) down] =
  option_map (vscale (Fin (s * t))) (products_sign_covariance features w [up; down]).
Proof.
  intros Hs Ht. assert (U := unit_mul s t Hs Ht). unfold products_sign_covariance. cbv zeta.
  assert (E : map (fun u => map (dot u) (map (vscale (Fin t)) down)) (map (vscale (Fin s)) up) = map (map (sg (s * t))) (map (fun u => map (dot u) down) up)).
  { rewrite !map_map. apply map_ext. intros u. rewrite !map_map. apply map_ext. intros d. apply dot_signed; assumption. }
  rewrite E. destruct w as [w|].
  - cbn [option_map]. f_equal. rewrite <- concat_map. unfold dense, vscale. rewrite map_map. apply map_ext. intros f. apply weighted_signed. exact U.
  - destruct (Nat.eqb features 1); [|reflexivity]. cbn [option_map vscale map]. f_equal. f_equal.
    rewrite map_map. rewrite (map_ext _ (fun r => sg (s * t) (xsum r))) by (intros r; apply sg_sum; exact U).
    rewrite <- (map_map xsum (sg (s * t))). apply sg_sum. exact U.
Qed.
