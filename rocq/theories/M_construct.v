(** * Model of the whole wavefunctions (vmcnet/models/construct.py)

    Each definition maps the electron positions of one walker to a sign-log value.  [None] is a
    raised exception.  Learned parameters are explicit arguments (functions of the index of the
    spin split where the code creates one layer per split), so that every statement is for every
    value of the parameters. *)
From Coq Require Import Reals List Bool Arith ZArith.
From Verif Require Import XReal M_slog M_models M_antisym.
Import ListNotations.
Local Open Scope R_scope.

(** Option sequencing: an exception aborts the call. *)
Definition bind_opt {A B} (o : option A) (f : A -> option B) : option B := match o with Some a => f a | None => None end.
Notation "'do' p <- o ; r" := (bind_opt o (fun p => r)) (at level 200, p name, o at level 100, r at level 200).
Definition check {A} (b : bool) (r : option A) : option A := if b then r else None.

(** jnp.split of an axis of length n does not raise. *)
Definition splittable (s : particle_split) (n : nat) : bool :=
  match s with Equal k => negb (Nat.eqb k 0) && Nat.eqb (n mod k) 0 | At _ => true end.
(** No layer of a backflow raises on n particles. *)
Definition backflow_ok (bs : list block) (n : nat) : bool := forallb (fun b => splittable (l1_split (b_one b)) n) bs.

(** Shapes must not be negative. *)
Fixpoint to_nats (l : list Z) : option (list nat) :=
  match l with
  | [] => Some []
  | z :: r => if Z.ltb z 0 then None else option_map (cons (Z.to_nat z)) (to_nats r)
  end.

(** construct.py 73-78: DeterminantFnMode. *)
Inductive det_mode := SIGN_COVARIANCE | PARALLEL_EVEN | PAIRWISE_EVEN.

(** construct.py 727-852: the attributes of FermiNet.  The orbital parameters of split i are
    [fn_orbitals i]; their number of orbitals is set by the call.  The determinant function takes
    the number of outputs and the determinants of each split. *)
Record ferminet := { fn_split : particle_split; fn_streams : stream_options; fn_backflow : list block; fn_ndet : nat;
  fn_orbitals : nat -> orbital_split; fn_soft : xr; fn_isotropic : bool;
  fn_det_fn : option (nat -> list vec -> vec); fn_mode : det_mode; fn_full_det : bool }.

(** construct.py 650-692: get_resnet_determinant_fn_for_ferminet; the parameters of the network depend on
    the number of outputs [dout] through their shape only. *)
Definition resnet_determinant_fn (ndense : nat) (act : xr -> xr) (inner : list ((nat -> nat -> xr) * option (nat -> xr))) (final : nat -> nat -> xr)
  (dout : nat) (det_values : list vec) : vec := simple_resnet ndense dout act inner final (concat det_values).

(** construct.py 695-724: _reshape_raw_ferminet_orbitals on one split: the (n, ndet * norb) array becomes
    ndet arrays (n, norb), determinant k takes columns k*norb .. (k+1)*norb - 1. *)
Definition reshape_raw_orbitals (ndet : nat) (orb : arr2) : option (list arr2) :=
  let w := width orb in
  if Nat.eqb ndet 0 then None
  else if Nat.eqb (w mod ndet) 0
       then Some (map (fun k => map (fun row => firstn (w / ndet) (skipn (k * (w / ndet)) row)) orb) (seq 0 ndet))
       else None.

(** The orbital layer with the sizes computed by the call. *)
Definition set_norb (n : nat) (p : orbital_split) : orbital_split :=
  Build_orbital_split n (o_kernel p) (o_bias p) (o_iso p) (o_aniso p) (o_ion p).
Definition orbital_layer_of (m : ferminet) (osplit : particle_split) (norbs : list nat) : orbital_layer :=
  Build_orbital_layer osplit (fn_soft m) (fn_isotropic m) (mapi (fun i n => set_norb (n * fn_ndet m) (fn_orbitals m i)) norbs).

(** construct.py 940-967: FermiNet._eval_orbitals; SplitDense (equivariance.py 661-668) checks the number of
    splits.  Result: per split, per determinant, a matrix. *)
Definition eval_orbitals (m : ferminet) (osplit : particle_split) (norbs : list nat) (stream_1e : arr2) (r_ei : option arr3) : option (list (list arr2)) :=
  check (Nat.eqb (length norbs) (get_nsplits osplit) && splittable osplit (length stream_1e))
    (sequence (map (reshape_raw_orbitals (fn_ndet m)) (ferminet_orbitals (orbital_layer_of m osplit norbs) stream_1e r_ei))).

(** construct.py 929-938: FermiNet._get_norbitals_per_split. *)
Definition norbitals_per_split (full_det : bool) (nelec_total : nat) (osplit : particle_split) : option (list nat) :=
  if full_det then Some (repeat nelec_total (get_nsplits osplit)) else bind_opt (get_nelec_per_split osplit nelec_total) to_nats.

(** The one-electron stream as the backflow and the orbital layers use it.  Simplification: the unflattened stream
    (C54) has one axis more, which no model here supports; it is treated as an exception. *)
Definition rows_of_input (i : input1) : option arr2 := match i with Rows x => Some x | Unflattened _ => None end.

(** jnp.prod over the splits. *)
Definition xprod (l : list xr) : xr := fold_right xmul (Fin 1) l.
(** Determinant k of every split, as a list over the splits. *)
Definition determinant_slices (orbitals : list (list arr2)) (ndet : nat) : list (list arr2) :=
  map (fun k => map (fun o => nth k o []) orbitals) (seq 0 ndet).

(** construct.py 878-891: _calculate_psi_parallel_even. *)
Definition psi_parallel_even (ndet : nat) (fn : nat -> list vec -> vec) (fn_inputs : list vec) : xr :=
  let even_outputs := make_array_list_fn_sign_invariant ndet (fn ndet) fn_inputs in
  let prod_dets := map (fun k => xprod (map (fun d => nth k d (Fin 0)) fn_inputs)) (seq 0 ndet) in
  xsum (zipw xmul prod_dets even_outputs).
(** construct.py 893-922: _calculate_psi_pairwise_even. *)
Definition psi_pairwise_even (ndet : nat) (fn : nat -> list vec -> vec) (fn_inputs : list vec) : option xr :=
  match fn_inputs with
  | [up; down] =>
      let even_outputs := make_array_list_fn_sign_invariant (ndet * ndet) (fn (ndet * ndet)%nat) fn_inputs in
      let prod_dets := concat (map (fun u => map (fun d => xmul u d) down) up) in
      Some (xsum (zipw xmul prod_dets even_outputs))
  | _ => None
  end.

(** construct.py 999-1022: from the orbital matrices (per split, per determinant) to psi.  The code computes each
    determinant for all determinant indices at once. *)
Definition psi_from_orbitals (m : ferminet) (orbitals0 : list (list arr2)) : option slog :=
  let ndet := fn_ndet m in
  let orbitals := if fn_full_det m then [map (@concat vec) (determinant_slices orbitals0 ndet)] else orbitals0 in
  match fn_det_fn m with
  | Some fn =>
      do fn_inputs <- sequence (map (fun o => sequence (map linalg_det o)) orbitals);
      do psi <- match fn_mode m with
                | SIGN_COVARIANCE => Some (nth 0 (make_array_list_fn_sign_covariant 1 (fn 1%nat) fn_inputs) (Fin 0))
                | PARALLEL_EVEN => Some (psi_parallel_even ndet fn fn_inputs)
                | PAIRWISE_EVEN => psi_pairwise_even ndet fn fn_inputs
                end;
      Some (array_to_slog psi)
  | None =>
      do slog_det_prods <- sequence (map slogdet_product (determinant_slices orbitals ndet));
      slog_sum_over_axis slog_det_prods
  end.

(** construct.py 969-1022 up to the orbital matrices: FermiNet.__call__ on given positions and orbital split. *)
Definition ferminet_orbital_matrices (m : ferminet) (elec_pos : arr2) (osplit : particle_split) : option (list (list arr2)) :=
  let '(i1, i2, r_ei, _) := compute_input_streams (fn_streams m) elec_pos in
  do input_stream_1e <- rows_of_input i1;
  check (backflow_ok (fn_backflow m) (length elec_pos))
    (let stream_1e := backflow (fn_backflow m) input_stream_1e i2 in
     do norbs <- norbitals_per_split (fn_full_det m) (length elec_pos) osplit;
     eval_orbitals m osplit norbs stream_1e r_ei).
(** construct.py 969-1022: FermiNet.__call__. *)
Definition ferminet_call (m : ferminet) (elec_pos : arr2) : option slog :=
  do orbitals <- ferminet_orbital_matrices m elec_pos (fn_split m); psi_from_orbitals m orbitals.

(** ** construct.py 1025-1130: EmbeddedParticleFermiNet *)
(** The hidden-particle network: its input streams and backflow, and one dense layer per spin. *)
Record embedded := { em_net : ferminet; em_nhidden : list nat; em_streams : stream_options; em_backflow : list block; em_dense : nat -> mean_dense }.
Definition set_features (n : nat) (p : mean_dense) : mean_dense := Build_mean_dense n (md_kernel p) (md_bias p).
(** Output shapes (n_i, w_i) with their dense layers, as InvariantTensor.setup (invariance.py 121-139) builds them. *)
Definition invariance_params (dense_params : nat -> mean_dense) (shapes : list (nat * nat)) : list ((nat * nat) * mean_dense) :=
  mapi (fun i sh => (sh, set_features (fst sh * snd sh) (dense_params i))) shapes.
(** construct.py 1077-1130: positions of visible and hidden particles, spin by spin, and the orbital split. *)
Definition embed (e : embedded) (elec_pos : arr2) : option (arr2 * particle_split) :=
  let sp := fn_split (em_net e) in
  do visible <- bind_opt (get_nelec_per_split sp (length elec_pos)) to_nats;
  check (Nat.eqb (length (em_nhidden e)) (length visible))
    (let osplit := At (get_spin_split (zipw Nat.add visible (em_nhidden e))) in
     do split_input_particles <- split sp elec_pos;
     let '(i1, i2, _, _) := compute_input_streams (em_streams e) elec_pos in
     do stream_1e <- rows_of_input i1;
     check (backflow_ok (em_backflow e) (length elec_pos))
       (let hidden := invariant_tensor sp (Some (em_backflow e)) (invariance_params (em_dense e) (map (fun n => (n, width elec_pos)) (em_nhidden e))) stream_1e i2 in
        Some (concat (zipw (fun p h => p ++ h) split_input_particles hidden), osplit))).
Definition embedded_call (e : embedded) (elec_pos : arr2) : option slog :=
  do emb <- embed e elec_pos;
  do orbitals <- ferminet_orbital_matrices (em_net e) (fst emb) (snd emb);
  psi_from_orbitals (em_net e) orbitals.

(** ** construct.py 1133-1240: ExtendedOrbitalMatrixFermiNet *)
Record extended := { ex_net : ferminet; ex_nhidden : list nat; ex_backflow : option (list block); ex_dense : nat -> mean_dense }.
(** construct.py 1192-1206: _get_norbitals_per_split.  A list nhidden_fermions_per_spin whose length is not the number of
    splits raises (IndexError here or at 1165-1168, or ValueError in InvariantTensor). *)
Definition extended_norbitals (x : extended) (nelec_total : nat) : option (list nat) :=
  let m := ex_net x in
  if fn_full_det m then Some (repeat (nelec_total + list_sum (ex_nhidden x))%nat (get_nsplits (fn_split m)))
  else option_map (fun l => zipw Nat.add l (ex_nhidden x)) (bind_opt (get_nelec_per_split (fn_split m) nelec_total) to_nats).
(** construct.py 1158-1190: _get_invariance. *)
Definition extended_invariance (x : extended) (norbs : list nat) (input_1e : arr2) (input_2e : option arr3) (stream_1e : arr2) : option (list (list arr2)) :=
  let m := ex_net x in
  let shapes := zipw (fun h n => (h, (n * fn_ndet m)%nat)) (ex_nhidden x) norbs in
  let stream := match ex_backflow x with Some bs => backflow bs input_1e input_2e | None => stream_1e end in
  check (match ex_backflow x with Some bs => backflow_ok bs (length input_1e) | None => true end)
    (sequence (map (reshape_raw_orbitals (fn_ndet m)) (invariant_tensor (fn_split m) None (invariance_params (ex_dense x) shapes) stream None))).
(** construct.py 1208-1240 and 969-1022. *)
Definition extended_orbital_matrices (x : extended) (elec_pos : arr2) : option (list (list arr2)) :=
  let m := ex_net x in
  let '(i1, i2, r_ei, _) := compute_input_streams (fn_streams m) elec_pos in
  do input_stream_1e <- rows_of_input i1;
  check (backflow_ok (fn_backflow m) (length elec_pos) && Nat.eqb (length (ex_nhidden x)) (get_nsplits (fn_split m)))
    (let stream_1e := backflow (fn_backflow m) input_stream_1e i2 in
     do norbs <- extended_norbitals x (length elec_pos);
     do equivariant_part <- eval_orbitals m (fn_split m) norbs stream_1e r_ei;
     do invariant_part <- extended_invariance x norbs input_stream_1e i2 stream_1e;
     Some (zipw (zipw (fun eq inv => eq ++ inv)) equivariant_part invariant_part)).
Definition extended_call (x : extended) (elec_pos : arr2) : option slog :=
  do orbitals <- extended_orbital_matrices x elec_pos; psi_from_orbitals (ex_net x) orbitals.

(** ** construct.py 1243-1324: AntiequivarianceNet *)
Inductive antieq_kind := Cofactor | PerParticle.
(** construct.py 484-511: get_sign_covariance_from_config. *)
Inductive sign_covariance := Products (weights : option (nat -> nat -> xr)) | OddBackflow (bs : list block).
Record antieq_net := { an_split : particle_split; an_streams : stream_options; an_backflow : list block;
  an_kind : antieq_kind; an_orbitals : nat -> orbital_split; an_soft : xr; an_isotropic : bool;
  an_cov : sign_covariance; an_multiply : bool }.
(** antiequivariance.py 226-245, 398-416: number of orbitals = number of electrons of the split. *)
Definition antieq_layer (a : antieq_net) (x : arr2) (r_ei : option arr3) : option (list vec) :=
  do norbs <- bind_opt (get_nelec_per_split (an_split a) (length x)) to_nats;
  let l := Build_orbital_layer (an_split a) (an_soft a) (an_isotropic a) (mapi (fun i n => set_norb n (an_orbitals a i)) norbs) in
  check (splittable (an_split a) (length x))
    (match an_kind a with Cofactor => orbital_cofactor_layer l x r_ei | PerParticle => per_particle_determinant_layer l x r_ei end).
(** Number of features leaving a backflow fed with d features: the last dense width. *)
Definition backflow_width (bs : list block) (d : nat) : nat := fold_left (fun _ b => l1_ndense (b_one b)) bs d.
(** construct.py 499-511: the odd version of the backflow of all rows, summed over the particles. *)
Definition apply_sign_covariance (c : sign_covariance) (x : list arr2) : option vec :=
  match c with
  | Products w => products_sign_covariance 1 w x
  | OddBackflow bs =>
      let n := length (concat x) in
      let dout := backflow_width bs (width (concat x)) in
      let odd := make_array_list_fn_sign_covariant2 n dout (fun y => backflow bs (concat y) None) x in
      check (backflow_ok bs n) (Some (vsum dout odd))
  end.
(** construct.py 1301-1324. *)
Definition antieq_net_call (a : antieq_net) (elec_pos : arr2) : option slog :=
  let '(i1, i2, r_ei, _) := compute_input_streams (an_streams a) elec_pos in
  do stream_1e <- rows_of_input i1;
  check (backflow_ok (an_backflow a) (length elec_pos))
    (let backflow_out := backflow (an_backflow a) stream_1e i2 in
     do antieq <- antieq_layer a backflow_out r_ei;
     do antieq_out <- (if an_multiply a then multiply_antieq_by_eq_features antieq backflow_out (an_split a)
                       else Some (map (map (fun v => [v])) antieq));
     do antisym_vector <- apply_sign_covariance (an_cov a) antieq_out;
     Some (array_to_slog (xsum antisym_vector))).

(** ** construct.py 310-375: the Jastrow factors of the explicitly antisymmetrised models *)
Inductive jastrow :=
  | OneBodyDecay (kernel : xr)
  | TwoBodyDecay (ion_pos : arr2) (ion_charges : list xr) (ei : list xr) (ee : xr)   (* ei, ee: the strengths, trained or initial *)
  | BackflowBased (bs : option (list block))
  | AddedJastrow (ion_pos : arr2) (ion_charges : list xr) (ei : list xr) (ee : xr) (bs : option (list block)).   (* core.py 135-149: sum of two *)
Definition jastrow_backflow_ok (bs : option (list block)) (n : nat) : bool := match bs with Some b => backflow_ok b n | None => true end.
(** jastrow.py 232-271: the log scale factor comes from the ion charges, the strengths may have been trained away from them. *)
Definition two_body_part (ion_pos : arr2) (q ei : list xr) (ee : xr) (r_ei r_ee : option arr3) : option xr :=
  match r_ei, r_ee with Some a, Some b => Some (two_body_exp_decay ei ee (chargeless_scale_factor ion_pos q) true a b) | _, _ => None end.
Definition jastrow_call (j : jastrow) (input_1e : arr2) (input_2e : option arr3) (stream_1e : arr2) (r_ei r_ee : option arr3) : option xr :=
  match j with
  | OneBodyDecay k => option_map (one_body_exp_decay k true) r_ei
  | TwoBodyDecay ions q ei ee => two_body_part ions q ei ee r_ei r_ee
  | BackflowBased bs => check (jastrow_backflow_ok bs (length input_1e)) (Some (backflow_jastrow bs true input_1e input_2e stream_1e))
  | AddedJastrow ions q ei ee bs =>
      do a <- two_body_part ions q ei ee r_ei r_ee;
      check (jastrow_backflow_ok bs (length input_1e)) (Some (xadd (xadd (Fin 0) a) (backflow_jastrow bs true input_1e input_2e stream_1e)))
  end.

(** ** construct.py 1327-1456: FactorizedAntisymmetry, 1459-1571: GenericAntisymmetry *)
Record resnet := { rn_inner : list ((nat -> nat -> xr) * option (nat -> xr)); rn_final : nat -> nat -> xr }.
Inductive antisym_kind := Factorized (rank : nat) (resnets : nat -> nat -> resnet)   (* split, rank index *)
                        | Generic (net : resnet).
Record explicit_net := { en_split : particle_split; en_streams : stream_options; en_backflow : list block; en_jastrow : jastrow;
  en_ndense : nat; en_act : xr -> xr; en_antisym : antisym_kind }.
Definition run_resnet (e : explicit_net) (r : resnet) (x : vec) : vec := simple_resnet (en_ndense e) 1 (en_act e) (rn_inner r) (rn_final r) x.
Definition antisym_part (e : explicit_net) (split_spins : list arr2) : option slog :=
  match en_antisym e with
  | Factorized rank resnets =>
      do slog_antisyms <- factorized_antisymmetrize_slog rank
        (mapi (fun b _ => fun x_one_spin => concat (map (fun k => run_resnet e (resnets b k) x_one_spin) (seq 0 rank))) split_spins) split_spins;
      slog_sum_over_axis slog_antisyms
  | Generic r => Some (generic_antisymmetrize_slog 1 (run_resnet e r) split_spins)
  end.
Definition explicit_call (e : explicit_net) (elec_pos : arr2) : option slog :=
  let '(i1, i2, r_ei, r_ee) := compute_input_streams (en_streams e) elec_pos in
  do input_stream_1e <- rows_of_input i1;
  check (backflow_ok (en_backflow e) (length elec_pos))
    (let stream_1e := backflow (en_backflow e) input_stream_1e i2 in
     do split_spins <- split (en_split e) stream_1e;
     do antisym <- antisym_part e split_spins;
     do jastrow_part <- jastrow_call (en_jastrow e) input_stream_1e i2 stream_1e r_ei r_ee;
     Some (fst antisym, xadd (snd antisym) jastrow_part)).
