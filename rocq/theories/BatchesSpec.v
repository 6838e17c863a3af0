(** Independent vocabulary for the numbers of rows: what a sampler returns, and what a mini batch contains. *)
From Coq Require Import List ZArith Reals Bool Arith.
From Verif Require Import Base Cplx AutoregressiveSpec ObservableModel ObservableSpec ExactModel ExactSpec TrainingModel BatchesModel.
Import ListNotations.

(** The number of rows that a sampler of batch size B and mini batch size m returns. *)
Definition rows_returned (s : sampler) : nat :=
  match s_class s with FastGraph => s_batch s - s_batch s mod s_mini s | _ => s_batch s end.

(** The sizes of the objects fit together. *)
Definition sized_sampler (s : sampler) : Prop := 0 < s_mini s <= s_batch s.
Definition fits (v : monte_carlo) : Prop :=
  sized_sampler (mc_sampler v) /\ gen_batch_size (mc_generator v) = s_batch (mc_sampler v) /\
  0 < gen_mini (mc_generator v) <= gen_batch_size (mc_generator v).
(** The next mini batch starts a new batch. *)
Definition due (v : monte_carlo) : Prop := gen_batch_size (mc_generator v) < gen_idx (mc_generator v) + gen_mini (mc_generator v).

(** A source of random configurations of [n] spins. *)
Definition configurations (n : nat) (draw : nat -> nat -> list (list Z)) : Prop :=
  forall k m, length (draw k m) = m /\ forall s, In s (draw k m) -> In s (spin_configs n).

(** The [j]-th slice of [size] entries. *)
Definition part {X} (size j : nat) (l : list X) : list X := firstn size (skipn (j * size) l).

Local Open Scope R_scope.
(** The rows with the coefficients of the energy gradient, divided by [B]. *)
Definition labelled (n : nat) (H : list Z -> list Z -> C) (log_psi : list Z -> C) (B : nat) (rows : list (list Z)) : list (list Z * C) :=
  let mean := Cscale (/ INR (length rows)) (Csum (local_energy n H log_psi) rows) in
  map (fun s => (s, Cscale (/ INR B) (Cconj (local_energy n H log_psi s - mean)%C))) rows.
