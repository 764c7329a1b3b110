(** * Model of the FermiNet on whole batches of walkers
    (vmcnet/physics/potential.py 11-21, vmcnet/models/core.py, equivariance.py, jastrow.py 15-62, antisymmetry.py 23-42,
    construct.py 695-1022, vmcnet/utils/slog_helpers.py, log_linear_exp.py)

    The same code as in M_models.v and M_construct.v, this time call by call on arrays with any number of batch axes
    (M_tensor.v): every jnp.expand_dims, broadcast, split, concatenate, reshape, swapaxes and moveaxis of the source appears.
    The parameters are the same records. *)
From Coq Require Import Reals List Bool Arith ZArith.
From Verif Require Import XReal M_slog M_models M_antisym M_construct M_tensor.
Import ListNotations.

(** physics/potential.py 11-21: compute_displacements. *)
Definition nd_displacements (x y : tensor) : option tensor :=
  do a <- nd_expand_dims x 2; do b <- nd_expand_dims y 3; nd_op xsub a b.

(** equivariance.py 111-153: compute_electron_ion. *)
Definition nd_electron_ion (elec_pos : tensor) (ion_pos : option tensor) (include_ei_norm : bool) (ei_norm_softening : xr)
  : option (tensor * option tensor) :=
  match ion_pos with
  | None => Some (elec_pos, None)
  | Some ions =>
      do r_ei <- nd_displacements elec_pos ions;
      if include_ei_norm
      then do input_norm <- nd_reduce norm r_ei 1 true;
           do input_with_norm <- nd_concatenate [r_ei; nd_map (softened ei_norm_softening) input_norm] 1;
           do input_1e <- nd_flatten_last input_with_norm 2;
           Some (input_1e, Some r_ei)
      else Some (r_ei, Some r_ei)
  end.

(** core.py 45-66: compute_ee_norm_with_safe_diag. *)
Definition nd_ee_norm_with_safe_diag (r_ee : tensor) (softening_term : xr) : option tensor :=
  do n <- axis_size 2 r_ee;
  do eye_n <- nd_expand_dims (matrix_tensor n n eye) 1;
  do r_ee_diag_ones <- nd_op xadd r_ee eye_n;
  do ee_norms <- nd_reduce norm r_ee_diag_ones 1 true;
  nd_op xmul (nd_map (softened softening_term) ee_norms) (nd_map (xsub (Fin 1)) eye_n).

(** equivariance.py 156-187: compute_electron_electron. *)
Definition nd_electron_electron (elec_pos : tensor) (include_ee_norm : bool) (ee_norm_softening : xr) : option (tensor * tensor) :=
  do r_ee <- nd_displacements elec_pos elec_pos;
  if include_ee_norm
  then do r_ee_norm <- nd_ee_norm_with_safe_diag r_ee ee_norm_softening;
       do input_2e <- nd_concatenate [r_ee; r_ee_norm] 1;
       Some (input_2e, r_ee)
  else Some (r_ee, r_ee).

(** equivariance.py 37-108: compute_input_streams; the ion positions have NumPy shape (nion, [d]). *)
Definition ion_tensor (d : nat) (ions : arr2) : tensor := matrix_tensor (length ions) d (fun r c => nth c (nth r ions []) (Fin 0)).
Definition nd_input_streams (d : nat) (o : stream_options) (elec_pos : tensor) : option (tensor * option tensor * option tensor) :=
  do e <- nd_electron_ion elec_pos (option_map (ion_tensor d) (so_ion_pos o)) (so_ei_norm o) (so_ei_soft o);
  if so_2e o
  then do ee <- nd_electron_electron elec_pos (so_ee_norm o) (so_ee_soft o); Some (fst e, Some (fst ee), snd e)
  else Some (fst e, None, snd e).

(** core.py 171-211: Dense; the kernel has NumPy shape (inputs.shape[-1], features). *)
Definition nd_dense (features : nat) (kernel : nat -> nat -> xr) (bias : option (nat -> xr)) (x : tensor) : option tensor :=
  do d <- axis_size 1 x;
  do y <- nd_dot x (matrix_tensor d features kernel);
  match bias with None => Some y | Some b => nd_op xadd y (vector_tensor features b) end.

(** core.py 31-42: _split_mean on axis -k. *)
Definition nd_split_mean (x : tensor) (splits : particle_split) (k : nat) (keepdims : bool) : option (list tensor) :=
  do split_x <- nd_split x splits k;
  sequence (map (fun t => nd_reduce mean_of t k keepdims) split_x).

(** equivariance.py 29-34: _rolled_concat on the last axis. *)
Definition nd_rolled_concat (arrays : list tensor) (n : nat) : option tensor := nd_concatenate (skipn n arrays ++ firstn n arrays) 1.

(** utils/pytree_helpers.py 10-12, 28-30: tree_sum and tree_prod on lists of arrays; lists of different length raise. *)
Definition nd_tree_op (f : xr -> xr -> xr) (a b : list tensor) : option (list tensor) :=
  check (Nat.eqb (length a) (length b)) (sequence (zipw (nd_op f) a b)).

(** equivariance.py 307-349: _compute_transformed_1e_means. *)
Definition nd_transformed_1e_means (p : layer1) (split_means : list tensor) : option (list tensor) :=
  let nspins := length split_means in
  if l1_cyclic p
  then do split_concats <- sequence (map (nd_rolled_concat split_means) (seq 0 nspins));
       do all_spins <- nd_concatenate split_concats 2;
       do dense_mixed <- nd_dense (l1_ndense p) (l1_mixed p) None all_spins;
       nd_split dense_mixed (Equal (length split_concats)) 2
  else do split_concat <- nd_concatenate split_means 1;
       do dense_mixed <- nd_dense (l1_ndense p) (l1_mixed p) None split_concat;
       Some (repeat dense_mixed nspins).

(** equivariance.py 351-395: _compute_transformed_2e_means. *)
Definition nd_transformed_2e_means (p : layer1) (in_2e : tensor) : option (list tensor) :=
  do split_2e <- nd_split in_2e (l1_split p) 3;
  do concat_2e <- sequence (mapi (fun spin t =>
    do split_arrays <- nd_split_mean t (l1_split p) 2 false;
    if l1_cyclic p then nd_rolled_concat split_arrays spin else nd_concatenate split_arrays 1) split_2e);
  do all_spins <- nd_concatenate concat_2e 2;
  do dense_2e <- nd_dense (l1_ndense p) (l1_2e p) None all_spins;
  nd_split dense_2e (l1_split p) 2.

(** equivariance.py 397-407: _compute_mixed_split (and 190-203: _transformer_mix). *)
Definition nd_mixed_split (p : layer1) (in_1e : tensor) : option (list tensor) :=
  match l1_attention p with
  | Some a => do split_x <- nd_split in_1e (l1_split p) 2; sequence (map (nd_attention a) split_x)
  | None => do split_1e_means <- nd_split_mean in_1e (l1_split p) 2 true; nd_transformed_1e_means p split_1e_means
  end.

(** core.py 112-113: _valid_skip; the skip connection of equivariance.py 468-469 and 523-524. *)
Definition nd_skip (skip : bool) (scale : xr) (x out : tensor) : option tensor :=
  do dx <- axis_size 1 x; do dout <- axis_size 1 out;
  if skip && Nat.eqb dx dout then do s <- nd_op xadd out x; Some (nd_map (xmul scale) s) else Some out.

(** equivariance.py 409-471: FermiNetOneElectronLayer.__call__. *)
Definition nd_one_electron_layer (p : layer1) (in_1e : tensor) (in_2e : option tensor) : option tensor :=
  do dense_unmixed <- nd_dense (l1_ndense p) (l1_unmixed p) (l1_bias p) in_1e;
  do dense_unmixed_split <- nd_split dense_unmixed (l1_split p) 2;
  do dense_mixed_split <- nd_mixed_split p in_1e;
  do dense_out1 <- nd_tree_op xadd dense_unmixed_split dense_mixed_split;
  do dense_out <- match in_2e with
                  | Some y => do dense_2e_split <- nd_transformed_2e_means p y; nd_tree_op xadd dense_out1 dense_2e_split
                  | None => Some dense_out1
                  end;
  do dense_out_concat <- nd_concatenate dense_out 2;
  nd_skip (l1_skip p) (l1_scale p) in_1e (nd_map (l1_act p) dense_out_concat).

(** equivariance.py 512-526: FermiNetTwoElectronLayer.__call__. *)
Definition nd_two_electron_layer (p : layer2) (x : tensor) : option tensor :=
  do dense_out <- nd_dense (l2_ndense p) (l2_kernel p) (l2_bias p) x;
  nd_skip (l2_skip p) (l2_scale p) x (nd_map (l2_act p) dense_out).

(** equivariance.py 554-575: FermiNetResidualBlock.__call__. *)
Definition nd_residual_block (b : block) (in_1e : tensor) (in_2e : option tensor) : option (tensor * option tensor) :=
  do out_1e <- nd_one_electron_layer (b_one b) in_1e in_2e;
  match b_two b, in_2e with
  | Some l, Some y => do out_2e <- nd_two_electron_layer l y; Some (out_1e, Some out_2e)
  | _, _ => Some (out_1e, in_2e)
  end.

(** equivariance.py 605-625: FermiNetBackflow.__call__. *)
Fixpoint nd_backflow (bs : list block) (stream_1e : tensor) (stream_2e : option tensor) : option tensor :=
  match bs with
  | [] => Some stream_1e
  | b :: r => do s <- nd_residual_block b stream_1e stream_2e; nd_backflow r (fst s) (snd s)
  end.

(** equivariance.py 680-693: SplitDense.__call__ on given layers (features, kernel, bias); setup (661-668) checks their number. *)
Definition nd_split_dense (s : particle_split) (layers : list mean_dense) (x : tensor) : option (list tensor) :=
  check (Nat.eqb (length layers) (get_nsplits s))
    (do x_split <- nd_split x s 2;
     sequence (zipw (fun t p => nd_dense (md_features p) (md_kernel p) (md_bias p) t) x_split layers)).

(** core.py 214-242: ElementWiseMultiply over the last axis (kernel of NumPy shape (1, n)) and over the last two axes
    (kernel (1, n, m)). *)
Definition nd_multiply1 (kernel : nat -> xr) (x : tensor) : option tensor :=
  do n <- axis_size 1 x; nd_op xmul x (matrix_tensor 1 n (fun _ c => kernel c)).
Definition nd_multiply2 (kernel : nat -> nat -> xr) (x : tensor) : option tensor :=
  do n <- axis_size 2 x; do m <- axis_size 1 x;
  nd_op xmul x {| shape := [m; n; 1]; entry := fun i => kernel (nth 1 i 0) (nth 0 i 0) |}.

(** jastrow.py 15-31: _isotropy_on_leaf. *)
Definition nd_isotropy_on_leaf (r_ei_leaf : tensor) (norbitals : nat) (kernel : nat -> xr) : option tensor :=
  do x_nion <- nd_swapaxes r_ei_leaf 2;
  do x_nion <- nd_expand_dims x_nion 1;
  do x_nion <- nd_repeat_last norbitals x_nion;
  do iso_out <- nd_multiply1 kernel x_nion;
  nd_swapaxes iso_out 3.

(** jastrow.py 34-62: _anisotropy_on_leaf; one (d, d * norbitals) kernel per ion. *)
Definition nd_anisotropy_on_leaf (r_ei_leaf : tensor) (norbitals : nat) (kernel : nat -> nat -> nat -> xr) : option tensor :=
  do nion <- axis_size 2 r_ei_leaf;
  do d <- axis_size 1 r_ei_leaf;
  do split_out <- nd_split_dense (Equal nion) (map (fun ion => Build_mean_dense (d * norbitals) (kernel ion) None) (seq 0 nion)) r_ei_leaf;
  do concat_out <- nd_concatenate split_out 2;
  do out <- nd_reshape concat_out (norbitals :: d :: nion :: skipn 2 (shape r_ei_leaf));
  do out <- nd_swapaxes out 3;
  nd_swapaxes out 2.

(** equivariance.py 696-731: _compute_exponential_envelopes_on_leaf. *)
Definition nd_envelopes_on_leaf (l : orbital_layer) (p : orbital_split) (r_ei_leaf : tensor) : option tensor :=
  do scale_out <- (if ol_isotropic l then nd_isotropy_on_leaf r_ei_leaf (o_norb p) (o_iso p)
                   else nd_anisotropy_on_leaf r_ei_leaf (o_norb p) (o_aniso p));
  do distances <- nd_reduce norm scale_out 1 false;
  let inv_exp_distances := nd_map (fun r => xexp (xopp (softened (ol_soft l) r))) distances in
  do weighted <- nd_multiply2 (o_ion p) inv_exp_distances;
  nd_reduce xsum weighted 1 false.

(** equivariance.py 734-755: all splits; jax.tree_map over lists of different length raises. *)
Definition nd_envelopes (l : orbital_layer) (r_ei : tensor) : option (list tensor) :=
  do r_ei_split <- nd_split r_ei (ol_split l) 3;
  check (Nat.eqb (length r_ei_split) (length (ol_splits l)))
    (sequence (zipw (fun t p => nd_envelopes_on_leaf l p t) r_ei_split (ol_splits l))).

(** equivariance.py 815-851: FermiNetOrbitalLayer.__call__. *)
Definition nd_orbital_layer (l : orbital_layer) (x : tensor) (r_ei : option tensor) : option (list tensor) :=
  do orbs <- nd_split_dense (ol_split l) (map (fun p => Build_mean_dense (o_norb p) (o_kernel p) (o_bias p)) (ol_splits l)) x;
  match r_ei with
  | Some r => do exp_envelopes <- nd_envelopes l r; nd_tree_op xmul orbs exp_envelopes
  | None => Some orbs
  end.

(** construct.py 695-724: _reshape_raw_ferminet_orbitals. *)
Definition nd_reshape_raw_orbitals (ndet : nat) (orb : tensor) : option tensor :=
  match shape orb with
  | [] => None
  | w :: s => if Nat.eqb ndet 0 then None
              else do o <- nd_reshape orb (w / ndet :: ndet :: s); nd_move_to_front o 2
  end.

(** construct.py 940-967: FermiNet._eval_orbitals. *)
Definition nd_eval_orbitals (m : ferminet) (osplit : particle_split) (norbs : list nat) (stream_1e : tensor) (r_ei : option tensor) : option (list tensor) :=
  do orbitals <- nd_orbital_layer (orbital_layer_of m osplit norbs) stream_1e r_ei;
  sequence (map (nd_reshape_raw_orbitals (fn_ndet m)) orbitals).

(** antisymmetry.py 23-42: slogdet_product. *)
Definition nd_slogdet_product (xs : list tensor) : option (tensor * tensor) :=
  do slogdets <- sequence (map nd_slogdet xs);
  match slogdets with
  | [] => None
  | a :: r => fold_left (fun acc b => do acc <- acc; do s <- nd_op xmul (fst acc) (fst b); do l <- nd_op xadd (snd acc) (snd b); Some (s, l)) r (Some a)
  end.

(** log_linear_exp.py 9-60 without weights on axis 0, and slog_helpers.py 69-72: slog_sum_over_axis. *)
Definition nd_log_linear_exp (signs vals : tensor) : option (tensor * tensor) :=
  do max_val <- nd_max_first vals;
  do shifted <- nd_op xsub vals max_val;
  do terms_divided_by_max <- nd_op xmul signs (nd_map xexp shifted);
  do transformed <- nd_reduce_first xsum terms_divided_by_max;
  do vals' <- nd_op xadd (nd_map (fun t => xlog (xabs t)) transformed) max_val;
  Some (nd_map xsign transformed, vals').
Definition nd_slog_sum_over_axis (x : tensor * tensor) : option (tensor * tensor) :=
  do r <- nd_log_linear_exp (fst x) (snd x);
  do s <- nd_squeeze_first (fst r);
  do l <- nd_squeeze_first (snd r);
  Some (s, l).

(** core.py 345-361: SimpleResNet.__call__; _valid_skip (112-113) compares the last axes. *)
Definition nd_valid_skip (x y : tensor) : bool := match shape x, shape y with a :: _, c :: _ => Nat.eqb a c | _, _ => false end.
Definition nd_resnet_layer (ndense : nat) (act : xr -> xr) (x : option tensor) (layer : (nat -> nat -> xr) * option (nat -> xr)) : option tensor :=
  do prev_x <- x;
  do y <- nd_dense ndense (fst layer) (snd layer) prev_x;
  let y' := nd_map act y in
  if nd_valid_skip prev_x y' then nd_op xadd y' prev_x else Some y'.
Definition nd_simple_resnet (ndense dout : nat) (act : xr -> xr) (inner : list ((nat -> nat -> xr) * option (nat -> xr))) (final : nat -> nat -> xr)
  (x : tensor) : option tensor :=
  do y <- fold_left (nd_resnet_layer ndense act) inner (Some x); nd_dense dout final None y.
(** construct.py 650-692: get_resnet_determinant_fn_for_ferminet: its parameters, its values on one walker and on arrays. *)
Record det_resnet := { dr_ndense : nat; dr_act : xr -> xr; dr_inner : list ((nat -> nat -> xr) * option (nat -> xr)); dr_final : nat -> nat -> xr }.
Definition det_resnet_fn (r : det_resnet) : nat -> list vec -> vec := resnet_determinant_fn (dr_ndense r) (dr_act r) (dr_inner r) (dr_final r).
Definition nd_determinant_fn (r : det_resnet) (dout : nat) (det_values : list tensor) : option tensor :=
  do concat_values <- nd_concatenate det_values 1; nd_simple_resnet (dr_ndense r) dout (dr_act r) (dr_inner r) (dr_final r) concat_values.

(** sign_symmetry.py 30-73: _reshape_sign_array_for_orbit and _get_sign_orbit_single_array, axis = -2. *)
Definition nd_sign_orbit (n_total i : nat) (x : tensor) : option tensor :=
  let nsyms := 2 ^ n_total in
  let sym_signs_1d := vector_tensor nsyms (fun k => Fin (nth k (get_sign_array_1d i nsyms) 0%R)) in
  do sym_signs_shaped <- nd_reshape sym_signs_1d (1 :: nsyms :: map (fun _ => 1) (tl (shape x)));
  do x' <- nd_expand_dims x 2;
  nd_op xmul sym_signs_shaped x'.
(** sign_symmetry.py 114-159: the orbits of a list (jnp.stack raises on an empty one) and the combined signs. *)
Definition nd_sign_orbit_list (x : list tensor) : option (list tensor) :=
  check (negb (Nat.eqb (length x) 0)) (sequence (mapi (nd_sign_orbit (length x)) x)).
Definition nd_combined_signs (n_total : nat) : tensor :=
  vector_tensor (2 ^ n_total) (fun k => Fin (fold_right Rmult 1%R (map (fun i => nth k (get_sign_array_1d i (2 ^ n_total)) 0%R) (seq 0 n_total)))).
(** sign_symmetry.py 220-221: _multiply_sign_along_axis, axis = -2. *)
Definition nd_multiply_sign (x s : tensor) : option tensor :=
  do x' <- nd_swapaxes x 2; do y <- nd_op xmul s x'; nd_swapaxes y 2.
(** sign_symmetry.py 250-299: make_array_list_fn_sign_covariant and make_array_list_fn_sign_invariant. *)
Definition nd_sign_covariant (fn : list tensor -> option tensor) (x : list tensor) : option tensor :=
  do symmetries <- nd_sign_orbit_list x;
  do outputs <- fn symmetries;
  do signed_results <- nd_multiply_sign outputs (nd_combined_signs (length x));
  nd_reduce xsum signed_results 2 false.
Definition nd_sign_invariant (fn : list tensor -> option tensor) (x : list tensor) : option tensor :=
  do symmetries <- nd_sign_orbit_list x;
  do outputs <- fn symmetries;
  nd_reduce xsum outputs 2 false.

(** construct.py 878-891 and 893-922. *)
Definition nd_psi_parallel_even (r : det_resnet) (ndet : nat) (fn_inputs : list tensor) : option tensor :=
  do even_outputs <- nd_sign_invariant (nd_determinant_fn r ndet) fn_inputs;
  do stacked_dets <- nd_stack_last fn_inputs;
  do prod_dets <- nd_reduce xprod stacked_dets 1 false;
  do terms <- nd_op xmul prod_dets even_outputs;
  nd_reduce xsum terms 1 false.
Definition nd_psi_pairwise_even (r : det_resnet) (ndet : nat) (fn_inputs : list tensor) : option tensor :=
  match fn_inputs with
  | [up; down] =>
      do even_outputs <- nd_sign_invariant (nd_determinant_fn r (ndet * ndet)) fn_inputs;
      do up_dets <- nd_expand_dims up 1;
      do down_dets <- nd_expand_dims down 2;
      do prod_dets <- nd_op xmul up_dets down_dets;
      do prod_dets <- match shape prod_dets with a :: c :: s => nd_reshape prod_dets (a * c :: s) | _ => None end;
      do terms <- nd_op xmul prod_dets even_outputs;
      nd_reduce xsum terms 1 false
  | _ => None
  end.

(** construct.py 969-1022: FermiNet.__call__ on positions of NumPy shape (..., n, d), with a ResNet as determinant function or
    without one (the field fn_det_fn is its one-walker form, det_resnet_fn, and is not used here). *)
Definition nd_ferminet (r : option det_resnet) (m : ferminet) (elec_pos : tensor) : option (tensor * tensor) :=
  do d <- axis_size 1 elec_pos;
  do streams <- nd_input_streams d (fn_streams m) elec_pos;
  let '(input_stream_1e, input_stream_2e, r_ei) := streams in
  do stream_1e <- nd_backflow (fn_backflow m) input_stream_1e input_stream_2e;
  do nelec_total <- axis_size 2 elec_pos;
  do norbs <- norbitals_per_split (fn_full_det m) nelec_total (fn_split m);
  do orbitals0 <- nd_eval_orbitals m (fn_split m) norbs stream_1e r_ei;
  do orbitals <- (if fn_full_det m then do c <- nd_concatenate orbitals0 2; Some [c] else Some orbitals0);
  match r with
  | Some r =>
      do dets <- sequence (map nd_det orbitals);
      do fn_inputs <- sequence (map nd_move_to_last dets);
      do psi <- match fn_mode m with
                | SIGN_COVARIANCE => do out <- nd_sign_covariant (nd_determinant_fn r 1) fn_inputs; nd_squeeze_last out
                | PARALLEL_EVEN => nd_psi_parallel_even r (fn_ndet m) fn_inputs
                | PAIRWISE_EVEN => nd_psi_pairwise_even r (fn_ndet m) fn_inputs
                end;
      Some (nd_map xsign psi, nd_map (fun a => xlog (xabs a)) psi)
  | None =>
      do slog_det_prods <- nd_slogdet_product orbitals;
      nd_slog_sum_over_axis slog_det_prods
  end.
