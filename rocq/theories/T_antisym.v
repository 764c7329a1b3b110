(** * Antisymmetry building blocks: C45, C46, C47, C48, C53 *)
From Coq Require Import Reals List Bool Arith Lia Lra Permutation Sorted.
From Verif Require Det.
From Verif Require Import XReal Rsum S_physics M_slog M_models M_antisym S_models S_antisym P_xsum P_slog P_split P_equiv P_equiv2 P_inv P_parity P_flips P_sgn P_antisym P_antieq P_leibniz P_signsym.
Import ListNotations.
Local Open Scope R_scope.

(** ** C45 *)
(** Orders come in lexicographic order, each exactly once, and the k-th sign is (-1) to the number
    of inversions of the k-th order. *)
Theorem C45_signs_are_parities : forall n,
  let orders := permutations n in
  length orders = fact n /\ length (get_lexicographic_signs n) = fact n /\ all_orders n orders /\ StronglySorted lex_lt orders /\
  forall k, (k < fact n)%nat -> nth k (get_lexicographic_signs n) 0 = sign_of_list (nth k orders []).
Proof.
  intros n orders. split; [apply permutations_length|]. split; [apply signs_length|]. split.
  { split; [apply permutations_NoDup|apply in_permutations]. }
  split; [apply permutations_sorted; [apply seq_length|apply seq_sorted]|].
  intros k Hk. rewrite <- permutations_signs_n. change 0 with (0 : R).
  rewrite (nth_indep _ 0 (sign_of_list [])) by (rewrite map_length, permutations_length; exact Hk). apply map_nth.
Qed.
Print Assumptions C45_signs_are_parities.
(** The sign of a sequence of exchanges is the parity of their number. *)
Theorem C45_parity_of_exchanges : forall n s i j, renumbering n s -> (i < n)%nat -> (j < n)%nat -> i <> j ->
  sign_of n (fun k => s (exchange i j k)) = - sign_of n s.
Proof. intros. apply sign_exchange; assumption. Qed.
Print Assumptions C45_parity_of_exchanges.
(** Every array row order is taken exactly by its order, with its parity. *)
Theorem C45_permuted_arrays : forall x k, (k < fact (length x))%nat ->
  let '(arrays, sgns) := parallel_permutations x in
  exists s, renumbering (length x) s /\ nth k arrays [] = reorder s x /\ nth k sgns 0 = sign_of (length x) s.
Proof.
  intros x k Hk. unfold parallel_permutations. destruct (C45_signs_are_parities (length x)) as (L & _ & (_ & A) & _ & S). rewrite (S k Hk).
  assert (Hp : Permutation (nth k (permutations (length x)) []) (seq 0 (length x))) by (apply A, nth_In; rewrite L; exact Hk).
  rewrite (nth_indep _ [] (take_rows x [])) by (rewrite map_length, L; exact Hk). rewrite map_nth.
  destruct (take_rows_flips x _ Hp) as (s & Hs & E & Es). exists s. auto.
Qed.
Print Assumptions C45_permuted_arrays.
Example C45_example : permutations 3 = [[0; 1; 2]; [0; 2; 1]; [1; 0; 2]; [1; 2; 0]; [2; 0; 1]; [2; 1; 0]]%nat /\
  get_lexicographic_signs 3 = [1; -1; -1; 1; 1; -1] /\ (5 < fact 3)%nat.
Proof. split; [reflexivity|]. split; [|cbn; lia]. rewrite <- permutations_signs_n. cbn. unfold sign_of_list. cbn. repeat f_equal; lra. Qed.

(** ** C46 *)
Theorem C46_factorized_antisymmetric : forall dout fns sizes rows s, keeps_spins sizes s -> length rows = list_sum sizes ->
  let g := sign_of (list_sum sizes) s in
  factorized_antisymmetrize dout fns (cut sizes (reorder s rows)) = option_map (map (xmul (Fin g))) (factorized_antisymmetrize dout fns (cut sizes rows)) /\
  factorized_antisymmetrize_slog dout fns (cut sizes (reorder s rows)) = option_map (map (times_sign g)) (factorized_antisymmetrize_slog dout fns (cut sizes rows)).
Proof.
  intros dout fns sizes rows s K L g. unfold g. rewrite <- (block_signs_prod sizes s K). split.
  - apply factorized_flips. apply cut_flips; assumption.
  - apply factorized_slog_flips. apply cut_flips; assumption.
Qed.
Print Assumptions C46_factorized_antisymmetric.
Theorem C46_generic_antisymmetric : forall dout fn sizes rows s, keeps_spins sizes s -> length rows = list_sum sizes ->
  let g := sign_of (list_sum sizes) s in
  generic_antisymmetrize dout fn (cut sizes (reorder s rows)) = xmul (Fin g) (generic_antisymmetrize dout fn (cut sizes rows)) /\
  generic_antisymmetrize_slog dout fn (cut sizes (reorder s rows)) = times_sign g (generic_antisymmetrize_slog dout fn (cut sizes rows)).
Proof.
  intros dout fn sizes rows s K L g. assert (E : generic_antisymmetrize dout fn (cut sizes (reorder s rows)) = sg g (generic_antisymmetrize dout fn (cut sizes rows))).
  { unfold g. rewrite <- (block_signs_prod sizes s K). apply generic_flips. apply cut_flips; assumption. }
  split; [exact E|]. unfold generic_antisymmetrize_slog. rewrite E. apply sg_slog. apply sign_unit.
Qed.
Print Assumptions C46_generic_antisymmetric.
(** Exchanging two electrons of the same spin has sign -1. *)
Theorem C46_exchange : forall sizes i j, (i < list_sum sizes)%nat -> (j < list_sum sizes)%nat -> i <> j -> spin_of sizes i = spin_of sizes j ->
  keeps_spins sizes (exchange i j) /\ sign_of (list_sum sizes) (exchange i j) = -1.
Proof. intros. split; [apply exchange_keeps|apply exchange_sign]; assumption. Qed.
Print Assumptions C46_exchange.
(** Two electrons of the same spin with the same features: the value is zero for functions with
    finite values, and can otherwise only be zero or NaN. *)
Theorem C46_vanishes_at_coincidence : forall dout fns fn sizes rows i j, length rows = list_sum sizes ->
  (i < list_sum sizes)%nat -> (j < list_sum sizes)%nat -> i <> j -> spin_of sizes i = spin_of sizes j -> nth i rows [] = nth j rows [] ->
  (forall v, factorized_antisymmetrize dout fns (cut sizes rows) = Some v ->
     Forall (fun a => a = Fin 0 \/ a = NaN) v /\
     (Forall (fun f : vec -> vec => forall y, Forall (fun a => isfin a = true) (f y)) fns -> v = repeat (Fin 0) dout /\
        factorized_antisymmetrize_slog dout fns (cut sizes rows) = Some (repeat (Fin 0, MInf) dout))) /\
  (let v := generic_antisymmetrize dout fn (cut sizes rows) in
   (v = Fin 0 \/ v = NaN) /\
   ((forall y, Forall (fun a => isfin a = true) (fn y)) -> v = Fin 0 /\ generic_antisymmetrize_slog dout fn (cut sizes rows) = (Fin 0, MInf))).
Proof.
  intros dout fns fn sizes rows i j L Hi Hj N Sp E. destruct (C46_exchange sizes i j Hi Hj N Sp) as (K & Sg).
  assert (Same : reorder (exchange i j) rows = rows) by (apply (reorder_exchange_same rows i j []); (rewrite L; assumption) || exact E).
  destruct (C46_factorized_antisymmetric dout fns sizes rows _ K L) as (A1 & _). destruct (C46_generic_antisymmetric dout fn sizes rows _ K L) as (A2 & _).
  rewrite Same, Sg in A1, A2.
  assert (Z : array_to_slog (Fin 0) = (Fin 0, MInf)) by (rewrite to_slog_fin; unfold slog_of; destruct (Rlt_dec 0 0); [lra|]; destruct (Req_EM_T 0 0); [reflexivity|lra]).
  split.
  - intros v Ev. rewrite Ev in A1. cbn [option_map] in A1. injection A1 as A1. apply map_own_opposite in A1. split; [exact A1|]. intros Fin_.
    destruct (factorized_finite dout fns (cut sizes rows) Fin_) as (F1 & F2). rewrite Ev in F1, F2. rewrite F2. assert (Ev0 := finrow_zero dout v F1 A1). split; [exact Ev0|].
    rewrite Ev0. cbn [option_map]. f_equal. clear -Z. induction dout as [|d IH]; [reflexivity|]. cbn [repeat map]. rewrite IH, Z. reflexivity.
  - cbv zeta. apply own_opposite in A2. split; [exact A2|]. intros Ff.
    assert (E0 : generic_antisymmetrize dout fn (cut sizes rows) = Fin 0).
    { apply fin_or_nan; [|exact A2]. rewrite generic_spec. apply isfin_nested. intros ys. apply isfin_xsum. apply Forall_map. apply Forall_forall. intros k _. apply finite_nth. exact Ff. }
    split; [exact E0|]. unfold generic_antisymmetrize_slog. rewrite E0. exact Z.
Qed.
Print Assumptions C46_vanishes_at_coincidence.
(** A function that is antisymmetric already is only multiplied by the product of the n_b!. *)
Theorem C46_generic_fixes_antisymmetric : forall dout fn sizes rows, length rows = list_sum sizes ->
  (forall s k, keeps_spins sizes s -> (k < dout)%nat ->
     nth k (fn (concat (reorder s rows))) (Fin 0) = xmul (Fin (sign_of (list_sum sizes) s)) (nth k (fn (concat rows)) (Fin 0))) ->
  generic_antisymmetrize dout fn (cut sizes rows) =
  xmul (Fin (product (map (fun m => INR (fact m)) sizes))) (xsum (map (fun k => nth k (fn (concat rows)) (Fin 0)) (seq 0 dout))).
Proof.
  intros dout fn sizes rows L H. rewrite generic_spec.
  assert (C : forall ys : list arr2, concat (map (@concat xr) ys) = concat (concat ys)).
  { intros ys. induction ys as [|y ys IH]; [reflexivity|]. cbn [map concat]. rewrite concat_app, IH. reflexivity. }
  rewrite nested_fixed.
  - rewrite C, cut_concat by exact L. unfold xscale. do 3 f_equal. unfold fact_product. f_equal.
    rewrite <- (map_map (@length vec) (fun m => INR (fact m))), cut_sizes by exact L. reflexivity.
  - intros sgs ys B. destruct (flips_blocks _ _ _ B) as (s & K & Ec & Es). rewrite cut_sizes in K by exact L. rewrite cut_concat in Ec, Es by exact L.
    rewrite !C, Ec, cut_concat by exact L. rewrite <- sg_sum by (apply lprod_unit, (bflips_unit _ _ _ B)). f_equal. rewrite map_map.
    apply map_ext_in. intros k Hk. apply in_seq in Hk. rewrite H by (assumption || lia). rewrite <- L, Es. reflexivity.
Qed.
Print Assumptions C46_generic_fixes_antisymmetric.
Theorem C46_factorized_fixes_antisymmetric : forall dout fns xs, length fns = length xs ->
  (forall b s k, (b < length xs)%nat -> renumbering (length (nth b xs [])) s -> (k < dout)%nat ->
     nth k (nth b fns (fun _ => []) (concat (reorder s (nth b xs [])))) (Fin 0) =
     xmul (Fin (sign_of (length (nth b xs [])) s)) (nth k (nth b fns (fun _ => []) (concat (nth b xs []))) (Fin 0))) ->
  factorized_antisymmetrize dout fns xs =
  reduce (zipw xmul) (zipw (fun (f : vec -> vec) (x : arr2) => map (fun k => xmul (Fin (INR (fact (length x)))) (nth k (f (concat x)) (Fin 0))) (seq 0 dout)) fns xs).
Proof.
  intros dout fns xs L H. unfold factorized_antisymmetrize. rewrite (proj2 (Nat.eqb_eq _ _) L). f_equal.
  apply (list_eq_nth _ _ []); [rewrite !zipw_length; reflexivity|]. intros b Hb. rewrite zipw_length in Hb.
  rewrite !(zipw_nth _ fns xs b (fun _ => []) []) by lia. rewrite single_leaf_spec. apply map_ext_in. intros k Hk. apply in_seq in Hk.
  apply leaf_fixed. intros s y (t & Ht & -> & ->). apply H; [lia|exact Ht|lia].
Qed.
Print Assumptions C46_factorized_fixes_antisymmetric.
Example C46_example : keeps_spins [2; 1]%nat (exchange 0 1) /\
  (let rows := [[Fin 1]; [Fin 2]; [Fin 5]] in
   generic_antisymmetrize 1 (fun y => [xmul (nth 0 y (Fin 0)) (nth 2 y (Fin 0))]) (cut [2; 1]%nat rows) = Fin (-5) /\
   factorized_antisymmetrize 1 [(fun y => [nth 0 y (Fin 0)]); (fun y => [nth 0 y (Fin 0)])] (cut [2; 1]%nat rows) = Some [Fin (-5)]).
Proof.
  split; [apply exchange_keeps; cbn; lia|]. cbv zeta. split.
  - unfold generic_antisymmetrize, parallel_permutations. cbn [cut firstn skipn map fst snd length]. rewrite <- !permutations_signs_n. cbn. unfold sign_of_list. cbn. f_equal. lra.
  - unfold factorized_antisymmetrize, single_leaf_call, parallel_permutations, zipw. cbn [cut firstn skipn combine map fst snd length Nat.eqb]. rewrite <- !permutations_signs_n. cbn. unfold sign_of_list. cbn. do 3 f_equal. lra.
Qed.
(** A function that satisfies the hypothesis of the fixing theorems: a difference. *)
Example C46_fixes_example : forall s, keeps_spins [2]%nat s ->
  nth 0 ((fun y => [xadd (nth 0 y (Fin 0)) (xopp (nth 1 y (Fin 0)))]) (concat (reorder s [[Fin 1]; [Fin 2]]))) (Fin 0) = xmul (Fin (sign_of 2 s)) (Fin (-1)).
Proof.
  intros s (P & _). unfold renumbering in P. cbn in P. apply Permutation_length_2_inv in P. unfold sign_of, sign_of_list.
  destruct P as [E|E]; injection E as E0 E1; cbn; rewrite <- E0, <- E1; cbn; f_equal; lra.
Qed.

(** ** C47 *)
(** Multiplying input i by the sign eps_i multiplies the covariant construction by the product of
    the signs and leaves the invariant one unchanged, for every wrapped function. *)
Theorem C47_covariant : forall dout fn x eps, signs eps -> length eps = length x ->
  make_array_list_fn_sign_covariant dout fn (zipw (fun e v => map (xmul (Fin e)) v) eps x) =
  map (xmul (Fin (product eps))) (make_array_list_fn_sign_covariant dout fn x).
Proof. intros dout fn x eps U L. apply (covariant_vec dout fn x eps U L). Qed.
Print Assumptions C47_covariant.
Theorem C47_covariant_arrays : forall n dout fn x eps, signs eps -> length eps = length x ->
  make_array_list_fn_sign_covariant2 n dout fn (zipw (fun e m => map (map (xmul (Fin e))) m) eps x) =
  map (map (xmul (Fin (product eps)))) (make_array_list_fn_sign_covariant2 n dout fn x).
Proof. intros n dout fn x eps U L. apply (covariant_mat n dout fn x eps U L). Qed.
Print Assumptions C47_covariant_arrays.
Theorem C47_invariant : forall dout fn x eps, signs eps -> length eps = length x ->
  make_array_list_fn_sign_invariant dout fn (zipw (fun e v => map (xmul (Fin e)) v) eps x) = make_array_list_fn_sign_invariant dout fn x.
Proof. intros dout fn x eps U L. apply (invariant_vec dout fn x eps U L). Qed.
Print Assumptions C47_invariant.
Theorem C47_covariant_slog : forall dout fn x eps, signs eps -> length eps = length x ->
  make_sl_array_list_fn_sign_covariant dout fn (zipw (fun e v => map (times_sign e) v) eps x) =
  option_map (map (times_sign (product eps))) (make_sl_array_list_fn_sign_covariant dout fn x).
Proof.
  intros dout fn x eps U L. rewrite (zipw_ext (fun e v => map (times_sign e) v) (fun e v => map (slog_flip e) v)).
  - apply (covariant_slog dout fn x eps U L).
  - intros e v. apply map_ext. intros p. symmetry. apply slog_flip_signed.
Qed.
Print Assumptions C47_covariant_slog.
(** The product layer is odd in each of its two inputs, with and without weights. *)
Theorem C47_products : forall features weights up down e f, signs [e; f] ->
  products_sign_covariance features weights [map (map (xmul (Fin e))) up; map (map (xmul (Fin f))) down] =
  option_map (map (xmul (Fin (e * f)))) (products_sign_covariance features weights [up; down]).
Proof. intros features weights up down e f U. inversion U as [|? ? He Hr]; subst. inversion Hr; subst. apply products_signed; assumption. Qed.
Print Assumptions C47_products.
(** Every pattern of signs occurs exactly once among the 2^n symmetries, with the product of its signs. *)
Theorem C47_every_pattern_once : forall x : list vec,
  let '(syms, sgns) := get_sign_orbit_for_list (fun s => map (xmul (Fin s))) x in
  length syms = (2 ^ length x)%nat /\ length sgns = (2 ^ length x)%nat /\
  (forall eps, signs eps -> length eps = length x ->
     exists k, (k < 2 ^ length x)%nat /\ nth k syms [] = zipw (fun e v => map (xmul (Fin e)) v) eps x /\ nth k sgns 0 = product eps) /\
  (forall k, (k < 2 ^ length x)%nat -> exists eps, signs eps /\ length eps = length x /\
     nth k syms [] = zipw (fun e v => map (xmul (Fin e)) v) eps x /\ nth k sgns 0 = product eps).
Proof.
  intros x. rewrite orbit_spec. rewrite !map_length, !seq_length. split; [reflexivity|]. split; [reflexivity|]. set (flip := fun s => map (xmul (Fin s))).
  assert (Sy : forall k, (k < 2 ^ length x)%nat -> nth k (map (symmetry flip x) (seq 0 (2 ^ length x))) [] = symmetry flip x k)
    by (intros k Hk; apply (nth_map_seq (symmetry flip x)); exact Hk).
  assert (Sg : forall k, (k < 2 ^ length x)%nat -> nth k (map (symmetry_sign (length x)) (seq 0 (2 ^ length x))) 0 = symmetry_sign (length x) k)
    by (intros k Hk; apply (nth_map_seq (symmetry_sign (length x))); exact Hk).
  assert (Pat : forall k eps, length eps = length x -> (forall i, (i < length x)%nat -> nth i eps 1 = bit_sign k i) ->
    symmetry flip x k = zipw (fun e v => map (xmul (Fin e)) v) eps x /\ symmetry_sign (length x) k = product eps).
  { intros k eps L H. split.
    - apply (list_eq_nth _ _ []); [unfold symmetry; rewrite mapi_length, zipw_length; lia|]. intros i Hi. unfold symmetry in *. rewrite mapi_length in Hi.
      rewrite (mapi_nth _ _ i []), (zipw_nth _ eps x i 1 []), H by lia. reflexivity.
    - unfold symmetry_sign, lprod, product. f_equal. apply (list_eq_nth _ _ 1); [rewrite map_length, seq_length; lia|]. intros i Hi. rewrite map_length, seq_length in Hi.
      rewrite (nth_map_seq (bit_sign k)) by exact Hi. symmetry. apply H. exact Hi. }
  split.
  - intros eps U L. exists (mask eps). assert (Hm : (mask eps < 2 ^ length x)%nat) by (rewrite <- L; apply mask_lt). split; [exact Hm|].
    rewrite Sy, Sg by exact Hm. apply Pat; [exact L|]. intros i Hi. symmetry. apply mask_bit; [exact U|lia].
  - intros k Hk. exists (map (bit_sign k) (seq 0 (length x))). split; [apply Forall_map, Forall_forall; intros i _; apply bit_sign_unit|].
    split; [rewrite map_length; apply seq_length|]. rewrite Sy, Sg by exact Hk. apply Pat; [rewrite map_length; apply seq_length|].
    intros i Hi. apply (nth_map_seq (bit_sign k)). exact Hi.
Qed.
Print Assumptions C47_every_pattern_once.
Example C47_example : signs [1; -1] /\
  make_array_list_fn_sign_covariant 1 (fun l => map (fun v => xmul v v) (hd [] l)) [[Fin 2]; [Fin 3]] = [Fin 0] /\
  make_array_list_fn_sign_covariant 1 (fun l => zipw xmul (hd [] l) (hd [] (tl l))) [[Fin 2]; [Fin 3]] = [Fin 24] /\
  make_array_list_fn_sign_invariant 1 (fun l => zipw xmul (hd [] l) (hd [] l)) [[Fin 2]; [Fin 3]] = [Fin 16].
Proof.
  split; [constructor; [left; reflexivity|constructor; [right; reflexivity|constructor]]|]. unfold make_array_list_fn_sign_covariant, make_array_list_fn_sign_invariant. rewrite !apply_spec.
  cbn. unfold symmetry, symmetry_sign, bit_sign. cbn. repeat split; do 2 f_equal; lra.
Qed.

(** ** C48 *)
Theorem C48_antiequivariant : forall x s, renumbering (length x) s ->
  let g := sign_of (length x) s in
  cofactor_antieq (reorder s x) = option_map (fun v => map (xmul (Fin g)) (reorder s v)) (cofactor_antieq x) /\
  slog_cofactor_antieq (reorder s x) = option_map (fun v => map (times_sign g) (reorder s v)) (slog_cofactor_antieq x).
Proof. intros x s H g. split; [apply (cofactor_reorder x s H)|apply (slog_cofactor_reorder x s H)]. Qed.
Print Assumptions C48_antiequivariant.
(** The outputs sum up to the determinant, the Leibniz sum over all orders. *)
Theorem C48_expansion : forall n m ps, square_of (S n) m -> all_orders (S n) ps ->
  exists terms, cofactor_antieq (fin2 m) = Some (map Fin terms) /\ slog_cofactor_antieq (fin2 m) = Some (map (fun t => array_to_slog (Fin t)) terms) /\
    length terms = S n /\ lsum terms = leibniz (S n) m ps /\ linalg_det (fin2 m) = Some (Fin (lsum terms)).
Proof.
  intros n m ps Sq A. exists (cofactor_terms n m). rewrite (leibniz_det (S n) m ps A), cofactor_terms_sum. split; [apply cofactor_fin2; exact Sq|]. split.
  - destruct (fin2_square _ m Sq) as (S2 & L). rewrite slog_cofactor_spec, S2, L. cbn [Nat.eqb]. f_equal. unfold cofactor_terms. rewrite map_map.
    apply map_ext_in. intros i Hi. apply in_seq in Hi. rewrite (minor_det_fin2 n m i Sq) by lia. rewrite sg_fin, nth_fin2, (map_nth Fin).
    rewrite !to_slog_fin. apply slog_multiply_of.
  - split; [unfold cofactor_terms; rewrite map_length; apply seq_length|]. split; [reflexivity|]. apply det_fin2. exact Sq.
Qed.
Print Assumptions C48_expansion.
(** Entry i of the output: the first entry of row i times its signed minor. *)
Theorem C48_entries : forall n m, square_of (S n) m ->
  exists terms, cofactor_antieq (fin2 m) = Some (map Fin terms) /\
    forall i ps, (i <= n)%nat -> all_orders n ps ->
      nth i terms 0 = (-1) ^ i * entry m i 0 * leibniz n (map (fun k => tl (nth (if Nat.ltb k i then k else S k) m [])) (seq 0 n)) ps.
Proof.
  intros n m Sq. exists (cofactor_terms n m). split; [apply cofactor_fin2; exact Sq|]. intros i ps Hi A. unfold cofactor_terms.
  rewrite (nth_map_seq (fun i => entry m i 0 * ((-1) ^ i * Det.det n (minor (entry m) i)))) by lia. rewrite (leibniz_det n _ ps A).
  replace (Det.det n (entry (map _ (seq 0 n)))) with (Det.det n (minor (entry m) i)); [ring|]. apply Det.det_ext. intros a b Ha Hb.
  unfold minor, entry, skip. rewrite (nth_map_seq (fun k => tl (nth (if Nat.ltb k i then k else S k) m []))) by exact Ha. destruct (nth _ m []); [destruct b; reflexivity|reflexivity].
Qed.
Print Assumptions C48_entries.
(** The four layers, over all spin populations: the outputs of each population are reordered and
    multiplied by the sign of the renumbering within that population. *)
Theorem C48_layers : forall l sizes s x r, describes (ol_split l) sizes -> length (ol_splits l) = length sizes -> keeps_spins sizes s ->
  length x = list_sum sizes -> length r = list_sum sizes ->
  let g := map (spin_sign sizes s) (seq 0 (length sizes)) in
  let moved {A} (act : R -> A -> A) (vs : list (list A)) := zipw (fun e v => map (act e) v) g (cut sizes (reorder s (concat vs))) in
  orbital_cofactor_layer l (reorder s x) (Some (reorder s r)) = option_map (moved (fun e => xmul (Fin e))) (orbital_cofactor_layer l x (Some r)) /\
  slog_orbital_cofactor_layer l (reorder s x) (Some (reorder s r)) = option_map (moved times_sign) (slog_orbital_cofactor_layer l x (Some r)) /\
  per_particle_determinant_layer l (reorder s x) (Some (reorder s r)) = option_map (moved (fun e => xmul (Fin e))) (per_particle_determinant_layer l x (Some r)) /\
  slog_per_particle_determinant_layer l (reorder s x) (Some (reorder s r)) = option_map (moved times_sign) (slog_per_particle_determinant_layer l x (Some r)) /\
  product g = sign_of (list_sum sizes) s.
Proof.
  intros l sizes s x r D LS K L Lr g moved. assert (O : orbitals_ok sizes l) by (split; assumption).
  split; [apply (cofactor_layer_flips l sizes s x (Some r) O K L Lr)|]. split; [apply (slog_cofactor_layer_flips l sizes s x (Some r) O K L Lr)|].
  split; [apply (per_particle_layer_flips l sizes s x (Some r) O K L Lr)|]. split; [apply (slog_per_particle_layer_flips l sizes s x (Some r) O K L Lr)|].
  unfold g. rewrite spin_signs_list by exact K. apply block_signs_prod. exact K.
Qed.
Print Assumptions C48_layers.
(** ... and without ion positions. *)
Theorem C48_layers_without_ions : forall l sizes s x, describes (ol_split l) sizes -> length (ol_splits l) = length sizes -> keeps_spins sizes s ->
  length x = list_sum sizes ->
  let g := map (spin_sign sizes s) (seq 0 (length sizes)) in
  let moved {A} (act : R -> A -> A) (vs : list (list A)) := zipw (fun e v => map (act e) v) g (cut sizes (reorder s (concat vs))) in
  orbital_cofactor_layer l (reorder s x) None = option_map (moved (fun e => xmul (Fin e))) (orbital_cofactor_layer l x None) /\
  slog_orbital_cofactor_layer l (reorder s x) None = option_map (moved times_sign) (slog_orbital_cofactor_layer l x None) /\
  per_particle_determinant_layer l (reorder s x) None = option_map (moved (fun e => xmul (Fin e))) (per_particle_determinant_layer l x None) /\
  slog_per_particle_determinant_layer l (reorder s x) None = option_map (moved times_sign) (slog_per_particle_determinant_layer l x None).
Proof.
  intros l sizes s x D LS K L g moved. assert (O : orbitals_ok sizes l) by (split; assumption).
  split; [apply (cofactor_layer_flips l sizes s x None O K L I)|]. split; [apply (slog_cofactor_layer_flips l sizes s x None O K L I)|].
  split; [apply (per_particle_layer_flips l sizes s x None O K L I)|]. apply (slog_per_particle_layer_flips l sizes s x None O K L I).
Qed.
Print Assumptions C48_layers_without_ions.
Example C48_example : square_of 2 [[1; 2]; [3; 4]] /\ all_orders 2 [[0; 1]; [1; 0]]%nat /\ leibniz 2 [[1; 2]; [3; 4]] [[0; 1]; [1; 0]]%nat = -2 /\
  cofactor_antieq (fin2 [[1; 2]; [3; 4]]) = Some [Fin 4; Fin (-6)].
Proof.
  split; [split; [reflexivity|repeat constructor]|]. split; [exact (Logic.conj (permutations_NoDup 2) (in_permutations 2))|]. split.
  - unfold leibniz, lsum, sign_of_list, entry. cbn. lra.
  - rewrite (cofactor_fin2 1) by (split; [reflexivity|repeat constructor]). unfold cofactor_terms. cbn [seq map].
    assert (E : forall i, Det.det 1 (minor (entry [[1; 2]; [3; 4]]) i) = entry [[1; 2]; [3; 4]] (skip i 0) 1).
    { intros i. rewrite det_expand. cbn [Rsum]. rewrite det_0. unfold minor. cbn. ring. }
    rewrite !E. unfold entry, skip. cbn. do 3 f_equal; [|f_equal]; lra.
Qed.

(** ** C53 *)
(** Positional arguments: what the orbital layer of the per-particle layers gets is what was configured. *)
Theorem C53_per_particle_layers : forall c nelec, exists b, per_particle_orbital_layer c nelec = Some b /\
  lookup_field orbitals_split b = Some (ac_split c) /\ lookup_field norbitals_per_split b = Some nelec /\
  lookup_field kernel_initializer_linear b = Some (ac_linear c) /\ lookup_field kernel_initializer_envelope_dim b = Some (ac_dim c) /\
  lookup_field kernel_initializer_envelope_ion b = Some (ac_ion c) /\ lookup_field bias_initializer_linear b = Some (ac_bias_init c) /\
  lookup_field use_bias b = Some (VBool (ac_orbitals_use_bias c)) /\ lookup_field isotropic_decay b = Some (VBool (ac_isotropic_decay c)).
Proof. intros c nelec. eexists. split; [reflexivity|]. repeat split. Qed.
Print Assumptions C53_per_particle_layers.
(** For the cofactor layers the full statement is false: orbitals_use_bias becomes the envelope
    softening, isotropic_decay becomes use_bias, and the decay is always anisotropic. *)
Theorem C53_cofactor_layers_refuted : forall c nelec, exists b, cofactor_orbital_layer c nelec = Some b /\
  lookup_field envelope_softening b = Some (VBool (ac_orbitals_use_bias c)) /\
  lookup_field use_bias b = Some (VBool (ac_isotropic_decay c)) /\ lookup_field isotropic_decay b = Some (VBool false).
Proof. intros c nelec. eexists. split; [reflexivity|]. repeat split. Qed.
Print Assumptions C53_cofactor_layers_refuted.
(** So the two options reach the layer under their own names exactly when there is neither a bias
    nor isotropic decay. *)
Theorem C53_cofactor_layers_when : forall c nelec b, cofactor_orbital_layer c nelec = Some b ->
  (lookup_field use_bias b = Some (VBool (ac_orbitals_use_bias c)) /\ lookup_field isotropic_decay b = Some (VBool (ac_isotropic_decay c)) <->
   ac_orbitals_use_bias c = false /\ ac_isotropic_decay c = false).
Proof.
  intros c nelec b E. injection E as <-. cbn. destruct (ac_orbitals_use_bias c), (ac_isotropic_decay c); split; intros (H1 & H2); split; congruence.
Qed.
Print Assumptions C53_cofactor_layers_when.
Example C53_example : exists b, cofactor_orbital_layer (Build_antieq_config (VOther 0) (VOther 1) (VOther 2) (VOther 3) (VOther 4) true false) (VOther 5) = Some b /\
  lookup_field use_bias b = Some (VBool false).
Proof. eexists. split; reflexivity. Qed.
