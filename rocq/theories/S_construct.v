(** * Specification vocabulary for the whole wavefunctions (C44, C62-C64) *)
From Coq Require Import Reals List Arith.
From Verif Require Import XReal M_slog M_models M_antisym M_construct S_models S_antisym.
Import ListNotations.

(** The ion positions, if any, have the dimension of the electron positions. *)
Definition ions_fit (d : nat) (o : stream_options) : Prop :=
  match so_ion_pos o with Some ions => shape2 (length ions) d ions | None => True end.
(** Every layer of a backflow is built for these spin populations. *)
Definition built_for (sizes : list nat) (bs : list block) : Prop := Forall (fun b => describes (l1_split (b_one b)) sizes) bs.
(** A FermiNet built for electrons in d dimensions with these spin populations; any parameters. *)
Definition fits (sizes : list nat) (d : nat) (m : ferminet) : Prop :=
  describes (fn_split m) sizes /\ built_for sizes (fn_backflow m) /\ ions_fit d (fn_streams m).

(** Two different electrons of the same spin at the same place. *)
Definition coincide (sizes : list nat) (x : arr2) (i j : nat) : Prop :=
  i < list_sum sizes /\ j < list_sum sizes /\ i <> j /\ spin_of sizes i = spin_of sizes j /\ nth i x [] = nth j x [].
(** All entries are finite. *)
Definition all_finite (m : arr2) : Prop := Forall (Forall (fun a => isfin a = true)) m.
(** A Jastrow factor whose backflow, if it has one, is built for these spin populations. *)
Definition jastrow_built_for (sizes : list nat) (j : jastrow) : Prop :=
  match j with
  | BackflowBased (Some bs) => built_for sizes bs
  | AddedJastrow _ _ _ _ (Some bs) => built_for sizes bs
  | _ => True
  end.
(** A readout of antiequivariant features that sums without per-particle weights, or a backflow
    built for these spin populations. *)
Definition readout_built_for (sizes : list nat) (c : sign_covariance) : Prop :=
  match c with Products None => True | Products (Some _) => False | OddBackflow bs => built_for sizes bs end.
