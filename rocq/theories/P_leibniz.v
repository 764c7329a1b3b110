(** * Proofs: determinants as signed sums; coincidences; functions that are already antisymmetric *)
From Coq Require Import Reals List Bool Arith Lia Lra Permutation Sorted.
From Verif Require Import XReal M_slog M_models M_antisym Det S_models S_antisym Rsum P_xsum P_slog P_split P_equiv P_equiv2 P_inv P_parity P_flips P_sgn P_antisym P_antieq.
Import ListNotations.
Local Open Scope R_scope.

Lemma lsum_concat l : lsum (concat l) = lsum (map lsum l).
Proof. induction l as [|a l IH]; [reflexivity|]. cbn [concat map]. rewrite lsum_app, IH. reflexivity. Qed.

Definition path (f : nat -> nat -> R) (p : list nat) : R := product (mapi f p).
Lemma path_cons f c q : path f (c :: q) = f O c * path (fun i => f (S i)) q.
Proof.
  unfold path, mapi. cbn [length seq]. unfold zipw. cbn [combine map fst snd product fold_right]. f_equal. f_equal.
  assert (G : forall o (l : list nat), map (fun p => f (fst p) (snd p)) (combine (seq (S o) (length l)) l) = map (fun p => f (S (fst p)) (snd p)) (combine (seq o (length l)) l)).
  { intros o l. revert o. induction l as [|a l IH]; intros o; [reflexivity|]. cbn [length seq combine map fst snd]. f_equal. apply IH. }
  unfold product. f_equal. apply G.
Qed.
Lemma leibniz_of n : forall f cols, length cols = n -> StronglySorted lt cols ->
  lsum (map (fun p => sign_of_list p * path f p) (permutations_of n cols)) = det n (fun i j => f i (nth j cols O)).
Proof.
  induction n as [|n IH]; intros f cols L St.
  - rewrite det_0. destruct cols; [|discriminate]. unfold lsum, path, sign_of_list. cbn. ring.
  - rewrite permutations_of_S, concat_map, lsum_concat, !map_map.
    rewrite <- (det_tr (S n) (fun i j => f i (nth j cols O))), det_expand, <- lsum_Rsum. rewrite L. f_equal. apply map_ext_in. intros j Hj. apply in_seq in Hj.
    rewrite map_map. set (c := nth j cols O).
    assert (Lr : length (remove_at j cols) = n) by (rewrite remove_at_length by lia; lia).
    rewrite (map_ext_in _ (fun q => (f O c * (-1) ^ j) * (sign_of_list q * path (fun i => f (S i)) q))).
    + rewrite lsum_map_scal, (IH (fun i => f (S i)) (remove_at j cols) Lr (sorted_remove cols j St)). rewrite <- (det_tr n (minor _ _)).
      rewrite Rmult_assoc. f_equal. f_equal. apply det_ext. intros a b Ha Hb. unfold minor. rewrite nth_remove_at by lia. reflexivity.
    + intros q Hq. apply permutations_of_in in Hq; [|exact Lr]. rewrite sign_cons, path_cons, (cnt_perm _ _ _ Hq). unfold c. rewrite cnt_removed by (assumption || lia). ring.
Qed.
Lemma leibniz_det n m ps : all_orders n ps -> leibniz n m ps = det n (entry m).
Proof.
  intros (Nd & Hp). assert (P : Permutation ps (permutations n)).
  { apply NoDup_Permutation; [exact Nd|apply permutations_NoDup|]. intros p. rewrite in_permutations. apply Hp. }
  unfold leibniz. rewrite (lsum_perm _ _ (Permutation_map _ P)).
  rewrite (map_ext_in _ (fun p => sign_of_list p * path (entry m) p)).
  - unfold permutations. rewrite leibniz_of; [|apply seq_length|apply seq_sorted]. apply det_ext. intros i j Hi Hj. rewrite seq_nth by lia. reflexivity.
  - intros p Hin. apply in_permutations in Hin. f_equal. unfold path. f_equal.
    apply (list_eq_nth _ _ 0); [rewrite map_length, mapi_length, seq_length, (Permutation_length Hin), seq_length; reflexivity|].
    intros i Hi. rewrite map_length, seq_length in Hi. rewrite (nth_map_seq (fun i => entry m i (nth i p O))) by exact Hi.
    symmetry. apply mapi_nth. rewrite (Permutation_length Hin), seq_length. exact Hi.
Qed.

(** ** Coincidence *)
Lemma exchange_renumbering n i j : (i < n)%nat -> (j < n)%nat -> renumbering n (exchange i j).
Proof.
  intros Hi Hj. unfold renumbering. apply NoDup_Permutation_bis.
  - apply NoDup_map_on; [|apply seq_NoDup]. intros x y _ _. unfold exchange.
    destruct (Nat.eqb_spec x i), (Nat.eqb_spec x j), (Nat.eqb_spec y i), (Nat.eqb_spec y j); lia.
  - rewrite map_length. lia.
  - intros k Hk. apply in_map_iff in Hk. destruct Hk as (x & <- & Hx). apply in_seq in Hx. apply in_seq. unfold exchange.
    destruct (Nat.eqb_spec x i), (Nat.eqb_spec x j); lia.
Qed.
Lemma reorder_exchange_same {A} (l : list A) i j d : (i < length l)%nat -> (j < length l)%nat -> nth i l d = nth j l d -> reorder (exchange i j) l = l.
Proof.
  intros Hi Hj E. rewrite (reorder_map_seq _ (length l) l d (exchange_renumbering _ i j Hi Hj) eq_refl).
  etransitivity; [|apply (map_seq_nth l d)]. apply map_ext_in. intros k Hk. unfold exchange.
  destruct (Nat.eqb_spec k i) as [->|]; [auto|]. destruct (Nat.eqb_spec k j) as [->|]; auto.
Qed.
Lemma exchange_keeps sizes i j : (i < list_sum sizes)%nat -> (j < list_sum sizes)%nat -> spin_of sizes i = spin_of sizes j -> keeps_spins sizes (exchange i j).
Proof.
  intros Hi Hj E. split; [apply exchange_renumbering; assumption|]. intros k Hk. unfold exchange.
  destruct (Nat.eqb_spec k i) as [->|]; [auto|]. destruct (Nat.eqb_spec k j) as [->|]; auto.
Qed.
Lemma exchange_sign n i j : (i < n)%nat -> (j < n)%nat -> i <> j -> sign_of n (exchange i j) = -1.
Proof.
  intros Hi Hj N. pose proof (sign_exchange n (fun i => i) i j (renumbering_id n) Hi Hj N) as E. rewrite sign_id in E. etransitivity; [exact E|]. lra.
Qed.
Lemma own_opposite v : v = sg (-1) v -> v = Fin 0 \/ v = NaN.
Proof. rewrite sg_m1. destruct v; cbn; intros E; try discriminate; auto. left. injection E as E. f_equal. lra. Qed.
Lemma own_opposite_sign (p : slog) : p = signed (-1) p -> fst p = Fin 0 \/ fst p = NaN.
Proof. intros E. apply own_opposite. apply (f_equal fst) in E. exact E. Qed.

(** ** Sums of equal terms *)
Definition xscale (c : R) (v : xr) : xr := xmul (Fin c) v.
Lemma xscale_pos c v : 0 < c -> xscale c v = match v with Fin a => Fin (c * a) | _ => v end.
Proof.
  intros H. unfold xscale. destruct v; cbn; try reflexivity; unfold inf_of_sign; repeat (destruct (Rlt_dec _ _)); try reflexivity; lra.
Qed.
Lemma xsum_same k v : (0 < k)%nat -> xsum (repeat v k) = xscale (INR k) v.
Proof.
  intros Hk. rewrite xscale_pos by (apply lt_0_INR; exact Hk). destruct k as [|k]; [lia|]. clear Hk. induction k as [|k IH].
  - cbn. destruct v; cbn; try reflexivity. f_equal. ring.
  - change (repeat v (S (S k))) with (v :: repeat v (S k)). rewrite xsum_cons, IH. destruct v; cbn [xadd]; try reflexivity.
    f_equal. rewrite (S_INR (S k)). ring.
Qed.
Lemma xscale_xscale a b v : 0 < a -> 0 < b -> xscale a (xscale b v) = xscale (a * b) v.
Proof.
  intros Ha Hb. rewrite !xscale_pos by (try apply Rmult_lt_0_compat; assumption). destruct v; try reflexivity. f_equal. ring.
Qed.
Lemma xscale_sg c s v : 0 < c -> unit s -> sg s (xscale c v) = xscale c (sg s v).
Proof. intros Hc U. unfold xscale. symmetry. apply sg_xmul_r. exact U. Qed.
Lemma map_const {A B} (v : B) (l : list A) : map (fun _ => v) l = repeat v (length l).
Proof. induction l as [|a l IH]; [reflexivity|]. cbn. f_equal. exact IH. Qed.

(** ** Functions that are antisymmetric already *)
Lemma take_rows_flips x p : Permutation p (seq 0 (length x)) -> flips (sign_of_list p) x (take_rows x p).
Proof.
  intros Hp. destruct (order_renumbering (length x) p Hp) as (Hr & E). exists (fun i => nth i p O). split; [exact Hr|]. split.
  - rewrite (reorder_map_seq _ (length x) x [] Hr eq_refl). unfold take_rows. rewrite <- E at 1. rewrite map_map. reflexivity.
  - unfold sign_of. rewrite E. reflexivity.
Qed.
Lemma leaf_fixed H x : (forall s y, flips s x y -> H y = sg s (H x)) -> leaf H x = xscale (INR (fact (length x))) (H x).
Proof.
  intros Hx. unfold leaf. rewrite (map_ext_in _ (fun _ => H x)).
  - rewrite map_const, permutations_length. apply xsum_same. apply lt_O_fact.
  - intros p Hp. apply in_permutations in Hp. rewrite (Hx (sign_of_list p)) by (apply take_rows_flips; exact Hp). apply sg_sg. apply sign_unit.
Qed.
Definition fact_product (xs : list arr2) : R := product (map (fun x => INR (fact (length x))) xs).
Lemma fact_product_pos xs : 0 < fact_product xs.
Proof.
  induction xs as [|x xs IH]; [cbn; lra|]. unfold fact_product in *. cbn [map product fold_right]. apply Rmult_lt_0_compat; [apply lt_0_INR, lt_O_fact|exact IH].
Qed.
Lemma bflips_refl {A} (L : list (list A)) : bflips (repeat 1 (length L)) L L.
Proof. induction L as [|l L IH]; cbn; constructor; [apply flips_refl|exact IH]. Qed.
Lemma lprod_ones k : lprod (repeat 1 k) = 1.
Proof. induction k as [|k IH]; [reflexivity|]. cbn. fold (lprod (repeat 1 k)). rewrite IH. ring. Qed.
Lemma nested_fixed xs : forall F, (forall sgs ys, bflips sgs xs ys -> F ys = sg (lprod sgs) (F xs)) -> nested F xs = xscale (fact_product xs) (F xs).
Proof.
  induction xs as [|x xs IH]; intros F HF; cbn [nested].
  - unfold fact_product, xscale. cbn [map product fold_right]. symmetry. apply sg_1.
  - assert (Hy : forall s y, flips s x y -> nested (fun ys => F (y :: ys)) xs = sg s (xscale (fact_product xs) (F (x :: xs)))).
    { intros s y Fy. pose proof (flips_unit _ _ _ Fy) as U.
      assert (E1 : F (y :: xs) = sg s (F (x :: xs))).
      { rewrite (HF (s :: repeat 1 (length xs)) (y :: xs)) by (constructor; [exact Fy|apply bflips_refl]). cbn [lprod fold_right].
        fold (lprod (repeat 1 (length xs))). rewrite lprod_ones, Rmult_1_r. reflexivity. }
      rewrite IH.
      - rewrite E1. symmetry. apply xscale_sg; [apply fact_product_pos|exact U].
      - intros sgs ys B'. rewrite (HF (s :: sgs) (y :: ys)) by (constructor; assumption). rewrite E1. cbn [lprod fold_right]. fold (lprod sgs).
        rewrite sg_mul by (exact U || (apply lprod_unit, (bflips_unit _ _ _ B'))). f_equal. ring. }
    assert (E0 := Hy 1 x (flips_refl x)). rewrite sg_1 in E0.
    rewrite (leaf_fixed (fun y => nested (fun ys => F (y :: ys)) xs) x).
    + rewrite E0, xscale_xscale by (apply fact_product_pos || apply lt_0_INR, lt_O_fact). reflexivity.
    + intros s y Fy. rewrite (Hy s y Fy), E0. reflexivity.
Qed.

(** ** Finite values *)
Lemma isfin_sg s v : isfin v = true -> isfin (sg s v) = true.
Proof. destruct v; cbn; intros; auto; discriminate. Qed.
Lemma isfin_xsum l : Forall (fun v => isfin v = true) l -> isfin (xsum l) = true.
Proof.
  induction 1 as [|v l Hv _ IH]; [reflexivity|]. rewrite xsum_cons. destruct v, (xsum l); cbn in *; auto; discriminate.
Qed.
Lemma isfin_leaf H x : (forall y, isfin (H y) = true) -> isfin (leaf H x) = true.
Proof. intros Hf. apply isfin_xsum. apply Forall_map. apply Forall_forall. intros p _. apply isfin_sg. apply Hf. Qed.
Lemma isfin_nested xs : forall F, (forall ys, isfin (F ys) = true) -> isfin (nested F xs) = true.
Proof. induction xs as [|x xs IH]; intros F HF; cbn [nested]; [apply HF|]. apply isfin_leaf. intros y. apply IH. intros ys. apply HF. Qed.
Lemma fin_or_nan v : isfin v = true -> v = Fin 0 \/ v = NaN -> v = Fin 0.
Proof. intros H [E|E]; [exact E|]. subst. discriminate. Qed.
Definition finite_fn (fn : vec -> vec) : Prop := forall y, Forall (fun v => isfin v = true) (fn y).
Lemma finite_nth fn c y : finite_fn fn -> isfin (nth c (fn y) (Fin 0)) = true.
Proof.
  intros H. destruct (Nat.lt_ge_cases c (length (fn y))) as [L|L].
  - apply (Forall_nth_in (fun v => isfin v = true) (fn y) c (Fin 0) (H y) L).
  - rewrite nth_overflow by exact L. reflexivity.
Qed.
Definition finrow (dout : nat) (v : vec) : Prop := length v = dout /\ Forall (fun a => isfin a = true) v.
Lemma single_leaf_finite dout fn x : finite_fn fn -> finrow dout (single_leaf_call dout fn x).
Proof.
  intros H. rewrite single_leaf_spec. split; [rewrite map_length; apply seq_length|]. apply Forall_map. apply Forall_forall. intros c _.
  apply isfin_leaf. intros y. apply finite_nth. exact H.
Qed.
Lemma finrow_mul dout a b : finrow dout a -> finrow dout b ->
  finrow dout (zipw xmul a b) /\ zipw slog_multiply (map array_to_slog a) (map array_to_slog b) = map array_to_slog (zipw xmul a b).
Proof.
  intros (La & Fa) (Lb & Fb). split; [split|].
  - rewrite zipw_length. lia.
  - clear La Lb. revert b Fb. induction Fa as [|x a Hx _ IH]; intros b Fb; [constructor|]. destruct Fb as [|y b Hy Fb]; [constructor|].
    unfold zipw in *. cbn [combine map fst snd]. constructor; [|apply IH; exact Fb]. destruct x, y; cbn in *; auto; discriminate.
  - clear La Lb. revert b Fb. induction Fa as [|x a Hx _ IH]; intros b Fb; [reflexivity|]. destruct Fb as [|y b Hy Fb]; [reflexivity|].
    unfold zipw in *. cbn [combine map fst snd]. f_equal; [|apply IH; exact Fb]. destruct x, y; cbn in Hx, Hy; try discriminate.
    rewrite !to_slog_fin, slog_multiply_of. cbn [xmul]. rewrite to_slog_fin. reflexivity.
Qed.
Lemma reduce_finrow dout l : Forall (finrow dout) l ->
  match reduce (zipw xmul) l with Some v => finrow dout v | None => True end /\
  reduce (zipw slog_multiply) (map (map array_to_slog) l) = option_map (map array_to_slog) (reduce (zipw xmul) l).
Proof.
  destruct l as [|a l]; [split; [exact I|reflexivity]|]. intros F. inversion F as [|? ? Fa Fl]; subst. cbn [reduce map option_map]. clear F.
  revert a Fa. induction Fl as [|b l Fb _ IH]; intros a Fa; [split; [exact Fa|reflexivity]|]. cbn [map fold_left].
  destruct (finrow_mul dout a b Fa Fb) as (F1 & E1). rewrite E1. apply IH. exact F1.
Qed.
Lemma leaves_finite dout fns xs : Forall finite_fn fns -> Forall (finrow dout) (zipw (single_leaf_call dout) fns xs).
Proof.
  intros F. revert xs. induction F as [|f fns Hf _ IH]; intros [|x xs]; try constructor; [apply single_leaf_finite; exact Hf|apply IH].
Qed.
Lemma factorized_finite dout fns xs : Forall finite_fn fns ->
  match factorized_antisymmetrize dout fns xs with Some v => finrow dout v | None => True end /\
  factorized_antisymmetrize_slog dout fns xs = option_map (map array_to_slog) (factorized_antisymmetrize dout fns xs).
Proof.
  intros F. unfold factorized_antisymmetrize, factorized_antisymmetrize_slog. destruct (Nat.eqb _ _); [|split; [exact I|reflexivity]].
  apply (reduce_finrow dout). apply leaves_finite. exact F.
Qed.
Lemma map_own_opposite v : v = map (sg (-1)) v -> Forall (fun a => a = Fin 0 \/ a = NaN) v.
Proof. induction v as [|a v IH]; intros E; constructor; cbn in E; injection E as E1 E2; [apply own_opposite; exact E1|apply IH; exact E2]. Qed.
Lemma finrow_zero dout v : finrow dout v -> Forall (fun a => a = Fin 0 \/ a = NaN) v -> v = repeat (Fin 0) dout.
Proof.
  intros (L & F) H. subst dout. induction H as [|a v Ha _ IH]; [reflexivity|]. inversion F; subst. cbn [length repeat]. f_equal; [apply fin_or_nan; assumption|apply IH; assumption].
Qed.
